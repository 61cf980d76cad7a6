(** Proofs about export and import: the dictionary of an object, and its way back. *)
From Verif Require Import Base LexM ParseM InterpM SpecParse Value_P Witness_Parse_P WorldM SpecWorld World_P
  Registry_P Arr Arr_P ExportM SpecExport Export_P.
From Coq Require Import Ascii.
Import List.

Section Export2.
Context {A : AlgOps} {O : PyOps} {C : CodeOps}.

Lemma bind_to {X Y} (m : M X) (f : X -> M Y) w x w' : m w = (Ok x, w') -> mbind m f w = f x w'.
Proof. unfold mbind. intros ->. reflexivity. Qed.

Lemma xkey_eqb_spec a b : xkey_eqb a b = true <-> a = b.
Proof.
  destruct a as [s|i s|x], b as [t|j t|y]; cbn; try (split; discriminate).
  - rewrite String.eqb_eq. split; congruence.
  - rewrite andb_true_iff, String.eqb_eq, cfg_eqb_spec. split; [intros [-> ->]; reflexivity|intros E; injection E; auto].
  - rewrite String.eqb_eq. split; congruence.
Qed.

Lemma dset_fresh (k : xkey) (v : xval) d : ~ In k (map fst d) -> dset xkey_eqb k v d = d ++ [(k, v)].
Proof.
  induction d as [|[k' v'] d IH]; cbn; intros N; [reflexivity|].
  destruct (xkey_eqb k k') eqn:E; [apply xkey_eqb_spec in E; subst; tauto|]. rewrite IH by tauto. reflexivity.
Qed.

Lemma comprehension_run {X} (f : X -> M (option (xkey * xval))) (g : X -> xkey * xval) w l : forall d,
  Forall (fun x => f x w = (Ok (Some (g x)), w)) l -> NoDup (map fst d ++ map (fun x => fst (g x)) l) ->
  comprehension f l d w = (Ok (d ++ map g l), w).
Proof.
  induction l as [|x l IH]; intros d F N; cbn [comprehension]; [cbn; now rewrite app_nil_r|].
  inversion F as [|? ? Fx Fl]; subst. rewrite (bind_to _ _ _ _ _ Fx). cbn [map] in *.
  pose proof (NoDup_remove_2 _ _ _ N) as Nk. destruct (g x) as [k v] eqn:G. cbn [fst] in *.
  rewrite dset_fresh by (intros I; apply Nk; rewrite in_app_iff; auto).
  rewrite IH; [rewrite <- app_assoc; reflexivity|exact Fl|]. rewrite map_app, <- app_assoc. exact N.
Qed.

Lemma name_at_ok w i : obj_of w i <> None -> name_at i w = (Ok (name_in w i), w).
Proof. intros H. unfold name_at, mbind, getobj, name_in. destruct (obj_of w i); [reflexivity|contradiction]. Qed.

(** The components as one list. *)
Definition flat (o : obj) : list (oid * (list Z * arr)) := flat_map (fun cd => map (pair (fst cd)) (snd cd)) (o_comps o).
Definition comp_list (w : world) (o : obj) : list ((list Z * string) * xval) :=
  map (fun p => ((fst (snd p), name_in w (fst p)), comp_value o (fst p) (snd (snd p)))) (flat o).
Definition comp_dict (w : world) (o : obj) : list (xkey * xval) :=
  map (fun e => (KConfig (fst (fst e)) (snd (fst e)), snd e)) (comp_list w o).

Lemma flat_forall n w o : components_back w n o -> Forall (fun p => cls_of w (fst p) = Some CCoordinates /\ obj_of w (fst p) <> None /\
  plain (name_in w (fst p)) /\ valid_cfg (fst (snd p)) /\ array_back n (snd (snd p))) (flat o).
Proof.
  intros [[_ K] F]. unfold flat. revert K F. induction (o_comps o) as [|[c d] l IH]; intros K F; cbn; [constructor|].
  inversion K as [|? ? [K1 K2] K']; subst. inversion F as [|? ? (F1 & F2 & F3) F']; subst. cbn [fst snd] in *.
  apply Forall_app. split; [|apply IH; auto]. clear IH F2 K F K' F'. induction F3 as [|[i a] d [V B] F3 IH]; cbn [map]; constructor; [|exact IH]. cbn [fst snd] in *. auto.
Qed.

Lemma nodup_app' {X} (l1 l2 : list X) : NoDup l1 -> NoDup l2 -> (forall x, In x l1 -> ~ In x l2) -> NoDup (l1 ++ l2).
Proof.
  intros N1 N2 D. induction N1 as [|x l Hx N1 IH]; cbn; [exact N2|]. constructor.
  - rewrite in_app_iff. intros [I|I]; [contradiction|]. apply (D x); [left; reflexivity|exact I].
  - apply IH. intros y I. apply D. right. exact I.
Qed.

Lemma comp_keys_once n w o : components_back w n o -> NoDup (map fst (comp_list w o)).
Proof.
  intros [[N _] F]. unfold comp_list, flat. rewrite map_map. cbn [fst]. revert N F.
  induction (o_comps o) as [|[c d] l IH]; intros N F; cbn; [constructor|].
  inversion F as [|? ? (_ & F2 & _) F']; subst. cbn in N. inversion N as [|? ? N1 N2]; subst. cbn [fst snd] in *.
  rewrite map_app, map_map. cbn [fst snd]. apply nodup_app'; [|apply IH; auto|].
  - clear -F2. induction d as [|[i a] d IH]; cbn in *; [constructor|]. inversion F2; subst. constructor; [|auto].
    intros I. apply H1. apply in_map_iff in I as ((j & b) & E & I). cbn in E. injection E as E. subst j. apply in_map_iff. exists (i, b). auto.
  - intros [i s] I1 I2. apply N1. apply in_map_iff in I1 as ((j & b) & E & I1). injection E as E1 E2. subst.
    apply in_map_iff in I2 as ((c' & p') & E & I2). cbn in E. injection E as _ E.
    apply in_flat_map in I2 as ((c2 & d2) & I3 & I4). apply in_map_iff in I4 as ((j' & b') & E' & _). cbn in E'. injection E' as E' _. subst c2.
    apply in_map_iff. exists (c', d2). cbn. split; [congruence|exact I3].
Qed.

Lemma comp_dict_once n w o : components_back w n o -> NoDup (map fst (comp_dict w o)).
Proof.
  intros H. pose proof (comp_keys_once n w o H) as N. unfold comp_dict. rewrite map_map. cbn [fst]. clear H.
  induction (comp_list w o) as [|[[i s] a] l IH]; cbn in *; [constructor|]. inversion N; subst. constructor; [|auto].
  intros I. apply H1. apply in_map_iff in I as (([j t] & b) & E & I). cbn in E. injection E as -> ->. apply in_map_iff. exists ((i, s), b). auto.
Qed.

Definition common_dict (w : world) (k : cls) (o : obj) (dc : string) : list (xkey * xval) :=
  [(KText "Components", XDict (comp_dict w o));
   (KText "DefaultCoords", XText dc);
   (KText "DefaultIndices", XTuple (o_indices o));
   (KText "Role", XText (role_name k));
   (KText "Symbol", XSymbol (if String.eqb (o_symbol o) "" then "T" else o_symbol o))]%string.

Lemma comp_run n w o : components_back w n o -> comprehension (fun p : oid * (list Z * arr) =>
      let! b := isinstance (fst p) CCoordinates in
      if negb b then mret None else
      let! n := name_at (fst p) in
      mret (Some (KConfig (fst (snd p)) n, comp_value o (fst p) (snd (snd p))))) (flat o) [] w = (Ok (comp_dict w o), w).
Proof.
  intros H. rewrite (comprehension_run _ (fun p => (KConfig (fst (snd p)) (name_in w (fst p)), comp_value o (fst p) (snd (snd p))))).
  - cbn [app]. unfold comp_dict, comp_list. rewrite map_map. reflexivity.
  - eapply Forall_impl; [|exact (flat_forall n w o H)]. intros p (H1 & H2 & _).
    unfold mbind at 1, isinstance. rewrite H1. cbn [cls_eqb negb]. rewrite (bind_to _ _ _ _ _ (name_at_ok w _ H2)). reflexivity.
  - cbn [app map]. pose proof (comp_dict_once n w o H) as N. unfold comp_dict, comp_list in N. rewrite !map_map in N. exact N.
Qed.

Lemma dict_tensor w n t c m k o a : tensor_back w n t c m k o a ->
  tensor_to_dict t w = (Ok (common_dict w k o (name_in w c) ++ [(KText "Metric"%string, XText (name_in w m))]), w).
Proof.
  intros (Hk & Ck & Ho & _ & Hc & _ & Oc & Lc & _ & Om & Lm & _).
  unfold tensor_to_dict. unfold mbind at 1, getobj at 1. rewrite Ho. unfold mbind at 1. rewrite Ck. cbn [mopt mret].
  fold (flat o). rewrite (bind_to _ _ _ _ _ (comp_run n w o Hc)).
  assert (E1 : (match k with CCoordinates => mret (o_name o) | _ => let! c0 := mopt EAttributeError (o_coords o) in name_at c0 end) w
           = (Ok (name_in w c), w)).
  { destruct k; try contradiction; rewrite Oc; apply (name_at_ok w c Lc). }
  rewrite (bind_to _ _ _ _ _ E1).
  destruct k; try contradiction; rewrite Om; cbn [mopt]; unfold mbind at 1, mret at 1; rewrite (bind_to _ _ _ _ _ (name_at_ok w m Lm)); reflexivity.
Qed.

Definition jac_dict (w : world) (o : obj) : list (xkey * xval) :=
  map (fun p : oid * (arr * arr * arr) => (KText (name_in w (fst p)), XDict [(KText "Jacobian", XArr (fst (fst (snd p)))); (KText "InverseJacobian", XArr (snd (fst (snd p))));
     (KText "ChristoffelJacobian", XArr (snd (snd p)))]%string)) (o_jacs o).
Definition trans_dict (w : world) (o : obj) : list (xkey * xval) :=
  map (fun p : oid * list (string * K) => (KText (name_in w (fst p)), XDict (map (fun r => (KSymbol (fst r), XExpr (snd r))) (snd p)))) (o_trans o).

Lemma keys_text {V} w (d : list (oid * V)) (f : oid * V -> xval) : keys_named w d -> NoDup (map (fun x => fst (KText (name_in w (fst x)), f x)) d).
Proof.
  intros [N _]. cbn. induction d as [|e d IH]; cbn in *; [constructor|]. inversion N; subst. constructor; [|auto].
  intros I. apply H1. apply in_map_iff in I as (e' & E & I). injection E as E. rewrite <- E. apply (in_map (fun e => name_in w (fst e))), I.
Qed.

Lemma rules_dict (l : list (string * K)) : forall d, NoDup (map fst d ++ map (fun r => KSymbol (fst r)) l) ->
  fold_left (fun d r => dset xkey_eqb (KSymbol (fst r)) (XExpr (snd r)) d) l d = d ++ map (fun r => (KSymbol (fst r), XExpr (snd r))) l.
Proof.
  induction l as [|r l IH]; intros d N; cbn [fold_left map]; [now rewrite app_nil_r|]. cbn [map] in N.
  pose proof (NoDup_remove_2 _ _ _ N) as Nk. rewrite dset_fresh by (intros I; apply Nk; rewrite in_app_iff; auto).
  rewrite IH; rewrite ?map_app, <- ?app_assoc; auto.
Qed.

Lemma symbols_once (l : list (string * K)) : NoDup (map fst l) -> NoDup (map (fun r => KSymbol (fst r)) l).
Proof.
  induction l as [|r l IH]; cbn; intros N; [constructor|]. inversion N; subst. constructor; [|auto].
  intros I. apply H1. apply in_map_iff in I as (e' & E & I). injection E as E. rewrite <- E. apply in_map, I.
Qed.

Lemma symbols_back (L : CodeLaws) l : Forall symbol_back l -> Forall scalar_back (map ksym l).
Proof.
  induction 1 as [|s l (x & R & T) F IH]; cbn; constructor; [|exact IH]. exists x. split; [exact R|apply symbol_scalar, T].
Qed.

Lemma coords_components (L : CodeLaws) w n t o : coords_back w n t o -> components_back w n o.
Proof.
  intros (Ck & Ho & (P & _) & Hn & Hc & Hi & Hl & Fs & _).
  assert (Nm : name_in w t = o_name o) by (unfold name_in; rewrite Ho; reflexivity).
  split; [split|]; rewrite Hc; cbn [map].
  - repeat constructor. intros [].
  - constructor; [|constructor]. cbn [fst]. rewrite Ho, Nm. split; [discriminate|exact P].
  - constructor; [|constructor]. cbn [fst snd]. split; [exact Ck|]. split; [repeat constructor; intros []|].
    constructor; [|constructor]. cbn [fst snd]. split; [constructor; [auto|constructor]|].
    split; [|cbn; apply (symbols_back L), Fs].
    split; [unfold awf; cbn; rewrite map_length; lia|reflexivity].
Qed.

Lemma dict_coords (L : CodeLaws) w n t o : coords_back w n t o ->
  tensor_to_dict t w = (Ok (common_dict w CCoordinates o (o_name o)
    ++ match o_jacs o with [] => [] | _ => [(KText "Jacobians"%string, XDict (jac_dict w o))] end
    ++ [(KText "CoordTransformations"%string, XDict (trans_dict w o))]), w).
Proof.
  intros H. pose proof (coords_components L w n t o H) as Hc.
  destruct H as (Ck & Ho & _ & _ & _ & _ & _ & _ & Kj & _ & Kt & Ft).
  unfold tensor_to_dict. unfold mbind at 1, getobj at 1. rewrite Ho. unfold mbind at 1. rewrite Ck. cbn [mopt mret].
  fold (flat o). rewrite (bind_to _ _ _ _ _ (comp_run n w o Hc)).
  rewrite (bind_to _ _ _ (o_name o) w) by reflexivity.
  assert (E1 : comprehension (fun p : oid * (arr * arr * arr) =>
          let! n := name_at (fst p) in
          let '(j, i, c) := snd p in
          mret (Some (KText n, XDict [(KText "Jacobian", XArr j); (KText "InverseJacobian", XArr i);
                                      (KText "ChristoffelJacobian", XArr c)]%string)))
        (o_jacs o) [] w = (Ok (jac_dict w o), w)).
  { unfold jac_dict. rewrite (comprehension_run _ (fun p : oid * (arr * arr * arr) => (KText (name_in w (fst p)), XDict [(KText "Jacobian", XArr (fst (fst (snd p)))); (KText "InverseJacobian", XArr (snd (fst (snd p))));
     (KText "ChristoffelJacobian", XArr (snd (snd p)))]%string))); [reflexivity| |cbn [app map]; apply (keys_text w), Kj].
    destruct Kj as [_ Kj]. eapply Forall_impl; [|exact Kj]. intros [j [[x y] z]] [H _]. cbn [fst snd] in *.
    rewrite (bind_to _ _ _ _ _ (name_at_ok w j H)). reflexivity. }
  rewrite (bind_to _ _ _ _ _ E1).
  assert (E2 : comprehension (fun p : oid * list (string * K) =>
          let! n := name_at (fst p) in
          mret (Some (KText n, XDict (fold_left (fun d r =>
                dset xkey_eqb (KSymbol (fst r)) (XExpr (snd r)) d) (snd p) []))))
        (o_trans o) [] w = (Ok (trans_dict w o), w)).
  { unfold trans_dict. rewrite (comprehension_run _ (fun p : oid * list (string * K) => (KText (name_in w (fst p)), XDict (map (fun r => (KSymbol (fst r), XExpr (snd r))) (snd p)))));
      [reflexivity| |cbn [app map]; apply (keys_text w), Kt].
    destruct Kt as [_ Kt]. rewrite Forall_forall in *. intros [j l] I. specialize (Kt _ I). specialize (Ft _ I). cbn [fst snd] in *.
    rewrite (bind_to _ _ _ _ _ (name_at_ok w j (proj1 Kt))). rewrite rules_dict by (cbn; apply symbols_once; tauto). reflexivity. }
  rewrite (bind_to _ _ _ _ _ E2). reflexivity.
Qed.

(** *** The value that is read for the dictionary *)
Definition texts (m : list (string * val)) : list (val * val) := map (fun p => (VS (chars (fst p)), snd p)) m.

Definition reads_entry (k : string) (x : xval) (v : val) : Prop :=
  forall b, reads_as b (if String.eqb k "CoordTransformations" then value_code true false x else value_code true true x) v.

Lemma ra_top (L : CodeLaws) b d m :
  Forall2 (fun p e => fst p = KText (fst e) /\ plain (fst e) /\ reads_entry (fst e) (snd p) (snd e)) d m -> NoDup (map fst m) ->
  reads_as b (association d) (VD (texts m)).
Proof.
  intros F N. unfold texts. rewrite <- (assoc_texts L m N). unfold association. apply ra_dict.
  clear N. induction F as [|[k x] [s v] d m (E & P & R) F IH]; cbn [map]; constructor; [|exact IH]. cbn [fst snd] in *. subst k.
  split; [apply ra_text, P|]. cbn [xkey_eqb]. apply R.
Qed.

(** The value of the components. *)
Lemma comp_reads (L : CodeLaws) f w n o : good_ints f -> components_back w n o -> 2 <= n -> o_comps o <> [] -> flat o <> [] ->
  exists vs, (forall b, reads_as b (value_code true true (XDict (comp_dict w o))) (VT (map (fun e => cfg_key f (fst e)) (comp_list w o)) vs)) /\
    Forall2 (fun e x => forall b, snd e = XArr b -> exists v, representation x = Ok v /\ as_array v = Some b /\ mat_to_array v = v) (comp_list w o) vs.
Proof.
  intros G H Hn _ Ne. pose proof (flat_forall n w o H) as F.
  assert (exists vs, Forall2 (fun e v => valid_cfg (fst (fst e)) /\ plain (snd (fst e)) /\ reads_as false (value_code true true (snd e)) v) (comp_list w o) vs
     /\ Forall2 (fun e x => forall b, snd e = XArr b -> exists v, representation x = Ok v /\ as_array v = Some b /\ mat_to_array v = v) (comp_list w o) vs) as (vs & F1 & F2).
  { unfold comp_list. clear Ne. induction F as [|[c [i a]] l (_ & _ & P & V & B) F (vs & F1 & F2)]; [exists []; split; constructor|]. cbn [fst snd map] in *.
    destruct (array_reads n a B) as (xs & Rx & Tx). destruct B as [Cu B].
    assert (Hv : comp_value o c a = XArr a \/ exists y, comp_value o c a = XExpr y /\ data a = [y]).
    { unfold comp_value. destruct (is_expr o c); [|left; reflexivity]. destruct (data a) as [|y [|z d]]; [left|right|left]; eauto. }
    destruct Hv as [Ev|(y & Ev & Ey)].
    - exists (arr_val a xs :: vs). rewrite Ev. split; constructor; auto; cbn [fst snd].
      + split; [exact V|]. split; [exact P|]. apply ra_arr; [apply Cu|exact Rx].
      + intros b' Eb. injection Eb as <-. apply (repr_arr L n); auto.
    - rewrite Ey in Rx. inversion Rx as [|? x ? ? Rx1 Rx2]; subst. exists (VE x :: vs). rewrite Ev. split; constructor; auto; cbn [fst snd].
      + split; [exact V|]. split; [exact P|]. cbn [value_code]. apply ra_hold. apply ra_code, Rx1.
      + intros b' Eb. discriminate Eb. }
  exists vs. split; [|exact F2]. intros b. apply (ra_components L f b); auto. intros E. apply Ne. unfold comp_list in E. destruct (flat o); [reflexivity|discriminate].
Qed.

Lemma in_flat n w o c d i a : components_back w n o -> dget Nat.eqb c (o_comps o) = Some d -> dget cfg_eqb i d = Some a ->
  is_expr o c = false -> In ((i, name_in w c), XArr a) (comp_list w o).
Proof.
  intros _ Hd Ha Hx. unfold comp_list, flat. apply in_map_iff. exists (c, (i, a)). split; [cbn [fst snd]; unfold comp_value; rewrite Hx; reflexivity|]. apply in_flat_map. exists (c, d). cbn [fst snd].
  split.
  - clear Ha. revert Hd. induction (o_comps o) as [|[c' d'] l IH]; cbn; [discriminate|]. destruct (Nat.eqb c c') eqn:E; intros H; [|right; auto].
    apply Nat.eqb_eq in E. subst. injection H as ->. left. reflexivity.
  - apply in_map. clear Hd. revert Ha. induction d as [|[j b] d IH]; cbn; [discriminate|]. destruct (cfg_eqb i j) eqn:E; intros H; [|right; auto].
    apply cfg_eqb_spec in E. subst. injection H as ->. left. reflexivity.
Qed.

(** Among the written components the default ones are found. *)
Lemma comp_found (L : CodeLaws) f w n o c a vs : good_ints f -> components_back w n o -> valid_cfg (o_indices o) ->
  In ((o_indices o, name_in w c), XArr a) (comp_list w o) ->
  Forall2 (fun e x => forall b, snd e = XArr b -> exists v, representation x = Ok v /\ as_array v = Some b /\ mat_to_array v = v) (comp_list w o) vs ->
  exists v, as_array v = Some a /\ mat_to_array v = v /\
    find_components (VL (map (fun z => VE (f z)) (o_indices o))) (VS (chars (name_in w c)))
      (combine (map (fun e => cfg_key f (fst e)) (comp_list w o)) vs) None = Ok (Some v).
Proof.
  intros G H V I F. pose proof (comp_keys_once n w o H) as N.
  assert (VV : Forall (fun e => valid_cfg (fst (fst e))) (comp_list w o)).
  { unfold comp_list. apply Forall_map. eapply Forall_impl; [|exact (flat_forall n w o H)]. cbn. tauto. }
  assert (exists v, as_array v = Some a /\ mat_to_array v = v /\
     Forall2 (fun k x => valid_cfg (fst k) /\ (is_target (o_indices o) (name_in w c) k = true -> representation x = Ok v)) (map fst (comp_list w o)) vs) as (v & E1 & E2 & F').
  { revert I N VV F. generalize (comp_list w o). intros l. revert vs. induction l as [|e l IH]; intros vs I N VV F; [destruct I|].
    inversion F as [|? x ? vs' Fx F1]; subst. inversion VV as [|? ? V1 V2]; subst. cbn in N. inversion N as [|? ? N1 N2]; subst.
    destruct I as [->|I].
    - destruct (Fx a eq_refl) as (v & R & As & Mt). clear Fx. cbn [snd] in *. exists v. split; [exact As|]. split; [exact Mt|]. cbn [map fst]. constructor; [auto|].
      clear IH F R As Mt V1 VV N. induction F1 as [|e' x' l' vs' _ F1 IH]; cbn [map]; constructor.
      + inversion V2; subst. split; [auto|]. unfold is_target. rewrite andb_true_iff. intros [B1 B2].
        apply cfg_eqb_spec in B1. apply String.eqb_eq in B2. exfalso. apply N1. cbn. left. destruct e' as [[? ?] ?]. cbn in *. congruence.
      + inversion V2; inversion N2; subst. apply IH; auto. intros J. apply N1. right. exact J.
    - destruct (IH vs' I N2 V2 F1) as (v' & A1 & A2 & A3). exists v'. split; [exact A1|]. split; [exact A2|]. cbn [map]. constructor; [|exact A3].
      split; [exact V1|]. unfold is_target. rewrite andb_true_iff. intros [B1 B2].
      apply cfg_eqb_spec in B1. apply String.eqb_eq in B2. exfalso. apply N1. apply in_map_iff. exists ((o_indices o, name_in w c), XArr a). split; [|exact I].
      destruct e as [[? ?] ?]. cbn in *. congruence. }
  exists v. split; [exact E1|]. split; [exact E2|].
  replace (map (fun e => cfg_key f (fst e)) (comp_list w o)) with (map (cfg_key f) (map fst (comp_list w o))) by (rewrite map_map; reflexivity).
  rewrite (find_comps L f (o_indices o) (name_in w c) v); auto.
  assert (B : existsb (is_target (o_indices o) (name_in w c)) (map fst (comp_list w o)) = true).
  { apply existsb_exists. exists (o_indices o, name_in w c). split; [apply (in_map fst) in I; exact I|]. unfold is_target. cbn [fst snd].
    rewrite String.eqb_refl. rewrite (proj2 (cfg_eqb_spec _ _) eq_refl). reflexivity. }
  rewrite B. reflexivity.
Qed.

End Export2.
