(** Proofs about export and import: the arguments that are read for an object. *)
From Verif Require Import Base LexM ParseM InterpM SpecParse Value_P Witness_Parse_P WorldM SpecWorld World_P
  Registry_P Arr Arr_P ExportM SpecExport Export_P Export2_P.
From Coq Require Import Ascii.
Import List.

Section Export3.
Context {A : AlgOps} {O : PyOps} {C : CodeOps}.

Definition registered_live (w : world) : Prop := forall i, In i (insts w) -> obj_of w i <> None.

Lemma has_name_run w i s : obj_of w i <> None -> has_name i (VS (chars s)) w = (Ok (String.eqb (name_in w i) s), w).
Proof. intros H. unfold has_name. rewrite (bind_to _ _ _ _ _ (name_at_ok w i H)). unfold mret. now rewrite text_eqb_chars. Qed.

Lemma filter_named_run w s l : (forall i, In i l -> obj_of w i <> None) ->
  filter_named (VS (chars s)) l w = (Ok (filter (fun i => String.eqb (name_in w i) s) l), w).
Proof.
  induction l as [|i l IH]; intros H; cbn [filter_named filter]; [reflexivity|].
  rewrite (bind_to _ _ _ _ _ (has_name_run w i s (H i (or_introl eq_refl)))).
  rewrite (bind_to _ _ _ _ _ (IH (fun j J => H j (or_intror J)))). reflexivity.
Qed.

Lemma all_named_run w s : registered_live w -> all_named (VS (chars s)) w = (Ok (objects_named w s), w).
Proof. intros R. unfold all_named, objects_named. now apply filter_named_run. Qed.

Lemma find_named_run w s l : (forall i, In i l -> obj_of w i <> None) ->
  find_named (VS (chars s)) l w = (Ok (hd_error (filter (fun i => String.eqb (name_in w i) s) l)), w).
Proof.
  induction l as [|i l IH]; intros H; cbn [find_named filter]; [reflexivity|].
  rewrite (bind_to _ _ _ _ _ (has_name_run w i s (H i (or_introl eq_refl)))).
  destruct (String.eqb (name_in w i) s); [reflexivity|]. apply IH. intros j J. apply H. right. exact J.
Qed.

Lemma first_named_run w s : registered_live w -> first_named (VS (chars s)) w = (Ok (hd_error (objects_named w s)), w).
Proof. intros R. unfold first_named, objects_named. now apply find_named_run. Qed.

Definition metric_found (w : world) (k : cls) (s : string) : option arg :=
  match k with
  | CCoordinates | CMetric => None
  | _ => Some (match rev (objects_named w s) with i :: _ => AObj i | [] => AVal (VS (chars s)) end)
  end.

Definition found_trans (w : world) (l : list (string * val)) : list (arg * val) :=
  flat_map (fun p => match objects_named w (fst p) with
                     | [] => [(AVal (VS (chars (fst p))), snd p)]
                     | is => map (fun i => (AObj i, snd p)) is
                     end) l.

Lemma trans_arg_run w l : registered_live w -> trans_arg (texts l) w = (Ok (found_trans w l), w).
Proof.
  intros R. induction l as [|[s v] l IH]; [reflexivity|]. unfold texts in *. cbn [map trans_arg fst snd found_trans flat_map].
  rewrite (bind_to _ _ _ _ _ (all_named_run w s R)). rewrite (bind_to _ _ _ _ _ IH). destruct (objects_named w s); reflexivity.
Qed.

Lemma class_of_role_name k : class_of_role (VS (chars (role_name k))) = Ok k.
Proof. destruct k; reflexivity. Qed.

Lemma read_tensor_run w nm m k dc ji i ks vs v sx mn tr : registered_live w ->
  entry "Role" (texts m) = Some (VS (chars (role_name k))) ->
  entry "DefaultCoords" (texts m) = Some (VS (chars dc)) ->
  entry "DefaultIndices" (texts m) = Some ji -> tuple_of ji = Ok i ->
  entry "Components" (texts m) = Some (VT ks vs) ->
  find_components ji (VS (chars dc)) (combine ks vs) None = Ok (Some v) ->
  entry "Symbol" (texts m) = Some sx ->
  (match k with CCoordinates | CMetric => True | _ => entry "Metric" (texts m) = Some (VS (chars mn)) end) ->
  (match k with CCoordinates => entry "CoordTransformations" (texts m) = Some (VD (texts tr))
           | _ => entry "CoordTransformations" (texts m) = None /\ tr = [] end) ->
  read_tensor nm (VD (texts m)) w =
    (Ok (k, mkKw nm i v (Some sx) (match k with CCoordinates => None | _ => Some (AVal (VS (chars dc))) end)
           (metric_found w k mn) (found_trans w tr)), w).
Proof.
  intros R Hr Hc Hi Ti Hcs Hf Hs Hm Ht. unfold read_tensor, item. rewrite Hr, Hc, Hi, Hcs.
  unfold mlift at 1. unfold mbind at 1. rewrite class_of_role_name. unfold mlift. unfold mbind at 1 2 3 4. cbn [two_lists].
  unfold mbind at 1. unfold mbind at 1. rewrite Hf. cbn [mopt]. unfold mbind at 1, mret at 1. rewrite Ti. unfold mbind at 1. cbn [items].
  unfold mbind at 1.
  assert (E1 : metric_arg k (VD (texts m)) w = (Ok (metric_found w k mn), w)).
  { unfold metric_arg, metric_found, item. destruct k; try reflexivity; rewrite Hm; unfold mlift; unfold mbind at 1;
      rewrite (bind_to _ _ _ _ _ (all_named_run w mn R)); reflexivity. }
  rewrite (bind_to _ _ _ _ _ E1). rewrite Hs.
  destruct k; [|destruct Ht as [Ht ->]; rewrite Ht; reflexivity..].
  rewrite Ht. cbn [items]. unfold mbind at 2. rewrite (bind_to _ _ _ _ _ (trans_arg_run w tr R)). reflexivity.
Qed.

Lemma tuple_of_ints f i : good_ints f -> valid_cfg i -> tuple_of (VL (map (fun z => VE (f z)) i)) = Ok i.
Proof.
  intros G V. cbn. f_equal. rewrite map_map. induction V as [|z i Hz V IH]; cbn; [reflexivity|].
  rewrite IH. destruct (G z) as [E _]; [tauto|]. now rewrite E.
Qed.

Definition tails (tail : list (xkey * xval)) (mtail : list (string * val)) : Prop :=
  (tail = [] /\ mtail = []) \/
  (tail = [(KText "OGReVersion"%string, XText version_text)] /\ mtail = [("OGReVersion"%string, VS (chars version_text))]).

Ltac plain_now := split; [split; [discriminate|split; [reflexivity|vm_compute; discriminate]]|split; reflexivity].

Definition entry_reads (p : xkey * xval) (e : string * val) : Prop :=
  fst p = KText (fst e) /\ plain (fst e) /\ reads_entry (fst e) (snd p) (snd e).

Lemma reads_text k s : String.eqb k "CoordTransformations" = false -> plain s -> reads_entry k (XText s) (VS (chars s)).
Proof. intros E P b. rewrite E. cbn [value_code]. apply ra_text, P. Qed.

Lemma reads_tuple f k i : String.eqb k "CoordTransformations" = false -> good_ints f -> valid_cfg i ->
  reads_entry k (XTuple i) (VL (map (fun z => VE (f z)) i)).
Proof. intros E G V b. rewrite E. cbn [value_code]. apply ra_hold. rewrite list_code_sep. apply ra_list, ra_cfg; auto. Qed.

Lemma reads_symbol k s x : String.eqb k "CoordTransformations" = false -> reads (ksym s) x -> reads_entry k (XSymbol s) (VE x).
Proof. intros E R b. rewrite E. cbn [value_code]. apply ra_hold, ra_code, R. Qed.

Lemma role_plain k : plain (role_name k).
Proof. destruct k; plain_now. Qed.

Lemma version_plain : plain version_text.
Proof. plain_now. Qed.

Lemma tails_reads tail mtail : tails tail mtail -> Forall2 entry_reads tail mtail.
Proof.
  intros [[-> ->]|[-> ->]]; constructor; [|constructor]. split; [reflexivity|]. split; [plain_now|].
  apply reads_text; [reflexivity|exact version_plain].
Qed.

Fixpoint once (l : list string) : bool :=
  match l with [] => true | x :: l' => negb (existsb (String.eqb x) l') && once l' end.

Lemma once_spec l : once l = true -> NoDup l.
Proof.
  induction l as [|x l IH]; cbn; intros H; [constructor|]. apply andb_prop in H as [H1 H2]. constructor; [|auto].
  intros I. rewrite (proj2 (existsb_exists _ l)) in H1; [discriminate|]. exists x. split; [exact I|apply String.eqb_refl].
Qed.

Definition common_vals (f : Z -> E) (ks vs : list val) (dc : string) (i : list Z) (k : cls) (sx : E) : list (string * val) :=
  [("Components", VT ks vs); ("DefaultCoords", VS (chars dc)); ("DefaultIndices", VL (map (fun z => VE (f z)) i));
   ("Role", VS (chars (role_name k))); ("Symbol", VE sx)]%string.

Lemma common_reads f w k o dc ks vs sx : good_ints f -> valid_cfg (o_indices o) -> plain dc -> o_symbol o <> EmptyString ->
  reads (ksym (o_symbol o)) sx -> (forall b, reads_as b (value_code true true (XDict (comp_dict w o))) (VT ks vs)) ->
  Forall2 entry_reads (common_dict w k o dc) (common_vals f ks vs dc (o_indices o) k sx).
Proof.
  intros G V P Ns Rs Rc. unfold common_dict, common_vals.
  replace (String.eqb (o_symbol o) "") with false by (symmetry; apply String.eqb_neq; exact Ns).
  repeat (constructor; [split; [reflexivity|]; split; [plain_now|]; cbn [fst snd]|]); [| | | | |constructor].
  - intros b. cbn [String.eqb Ascii.eqb Bool.eqb]. apply Rc.
  - apply reads_text; [reflexivity|exact P].
  - apply reads_tuple; auto.
  - apply reads_text; [reflexivity|apply role_plain].
  - apply reads_symbol; [reflexivity|exact Rs].
Qed.

Lemma made_array o c : made_in o c -> is_expr o c = false.
Proof.
  intros H. unfold is_expr. destruct (Nat.eqb_spec (o_rank o) 0) as [E|E]; [|reflexivity].
  destruct (H E) as (d & l & ->). rewrite Nat.eqb_refl. reflexivity.
Qed.

Lemma tensor_read (L : CodeLaws) w n t c m k o a tail mtail : tensor_back w n t c m k o a -> tails tail mtail ->
  exists tv v sx, (forall b, reads_as b (association ((common_dict w k o (name_in w c) ++ [(KText "Metric"%string, XText (name_in w m))]) ++ tail)) tv) /\
    as_array v = Some a /\ mat_to_array v = v /\ to_symbol sx = Some (o_symbol o) /\
    forall w2 nm, registered_live w2 -> read_tensor nm tv w2 =
      (Ok (k, mkKw nm (o_indices o) v (Some (VE sx)) (Some (AVal (VS (chars (name_in w c))))) (metric_found w2 k (name_in w m)) []), w2).
Proof.
  intros (Hk & Ck & Ho & (Pn & Ns & (sx & Rs & Ts)) & Hc & Hn & Oc & Lc & Pc & Om & Lm & Pm & Vi & Li & (d & D1 & D2) & Mi) T.
  destruct (ra_ints L) as [f G].
  pose proof (in_flat n w o c d (o_indices o) a Hc D1 D2 (made_array o c Mi)) as I.
  assert (Ne : flat o <> []) by (intros E; unfold comp_list in I; rewrite E in I; destruct I).
  destruct (comp_reads L f w n o G Hc Hn) as (vs & Rc & F); [intros E; unfold flat in Ne; rewrite E in Ne; auto|exact Ne|].
  destruct (comp_found L f w n o c a vs G Hc Vi I F) as (v & V1 & V2 & V3).
  set (ks := map (fun e => cfg_key f (fst e)) (comp_list w o)) in *.
  exists (VD (texts ((common_vals f ks vs (name_in w c) (o_indices o) k sx ++ [("Metric"%string, VS (chars (name_in w m)))]) ++ mtail))), v, sx.
  split; [|split; [exact V1|split; [exact V2|split; [exact Ts|]]]].
  - intros b. apply (ra_top L).
    + apply Forall2_app; [apply Forall2_app|apply tails_reads, T].
      * apply common_reads; auto.
      * constructor; [|constructor]. split; [reflexivity|]. split; [plain_now|]. apply reads_text; [reflexivity|exact Pm].
    + apply once_spec. destruct T as [[-> ->]|[-> ->]]; reflexivity.
  - intros w2 nm R. rewrite (read_tensor_run w2 nm _ k (name_in w c) (VL (map (fun z => VE (f z)) (o_indices o))) (o_indices o) ks vs v (VE sx) (name_in w m) []); auto.
    + destruct k; [contradiction|reflexivity..].
    + apply tuple_of_ints; auto.
    + destruct k; auto.
    + destruct T as [[-> ->]|[-> ->]]; destruct k; try contradiction; split; reflexivity.
Qed.

(** The components of coordinates. *)
Lemma symbols_read (L : CodeLaws) l : Forall symbol_back l -> exists xs, Forall2 reads (map ksym l) xs /\ map to_symbol xs = map Some l.
Proof.
  induction 1 as [|s l (x & R & T) F (xs & F' & T')]; [exists []; split; [constructor|reflexivity]|].
  exists (x :: xs). cbn. rewrite T, T'. split; [constructor; auto|reflexivity].
Qed.

Lemma repr_symbols n l xs : 2 <= n -> length l = n -> map to_symbol xs = map Some l ->
  representation (arr_val (mkArr [n] (map ksym l)) xs) = Ok (VSyms [n] l).
Proof.
  intros Hn Hl T.
  assert (Hx : length xs = n) by (pose proof (f_equal (@length _) T) as H; rewrite !map_length in H; lia).
  assert (E : array_arg (nest_val [n] xs) = Ok (VSyms [n] l)).
  { unfold array_arg. rewrite scan_nest; [|constructor; [lia|constructor]|cbn; lia]. cbn [rbind fst snd]. rewrite T, all_some_map. reflexivity. }
  unfold arr_val. cbn [shape]. cbn [nest_val] in *. pose proof (pieces_length (prodn []) n xs) as Len.
  destruct (pieces n (prodn []) xs) as [|p [|q ps]]; [cbn in Len; lia|cbn in Len; lia|]. exact E.
Qed.

Lemma reads_jacs (L : CodeLaws) w n t o : coords_back w n t o -> exists jv, reads_entry "Jacobians" (XDict (jac_dict w o)) jv.
Proof.
  intros (_ & _ & _ & _ & _ & _ & _ & _ & [N K] & F & _).
  assert (exists m, map fst m = map (fun e => name_in w (fst e)) (o_jacs o) /\
     Forall2 (fun p v => reads_as false (key_code (fst p)) (fst v) /\
       reads_as false (if xkey_eqb (fst p) (KText "CoordTransformations") then value_code true false (snd p)
                    else value_code true true (snd p)) (snd v)) (jac_dict w o) (texts m)) as (m & Km & Fm).
  { unfold jac_dict. clear N. induction (o_jacs o) as [|[c [[j i] x]] l IH]; [exists []; split; [reflexivity|constructor]|].
    inversion K as [|? ? [_ P] K']; subst. inversion F as [|? ? B F']; subst. cbn [snd] in B. destruct B as (B1 & B2 & B3). destruct (IH K' F') as (m & Km & Fm). cbn [fst snd] in *.
    destruct (array_reads n j B1) as (xj & Rj & _). destruct (array_reads n i B2) as (xi & Ri & _). destruct (array_reads n x B3) as (xx & Rx & _).
    assert (E : forall s, reads_as false (value_code true s (XDict [(KText "Jacobian", XArr j); (KText "InverseJacobian", XArr i); (KText "ChristoffelJacobian", XArr x)]%string))
       (assoc_val [(VS (chars "Jacobian"), arr_val j xj); (VS (chars "InverseJacobian"), arr_val i xi); (VS (chars "ChristoffelJacobian"), arr_val x xx)])).
    { intros s. apply ra_dict. repeat (constructor; [cbn [fst snd xkey_eqb String.eqb Ascii.eqb Bool.eqb key_code]; split; [apply ra_text; plain_now|]|]);
        [| | |constructor]; apply ra_arr; auto; [apply B1|apply B2|apply B3]. }
    exists ((name_in w c, assoc_val [(VS (chars "Jacobian"), arr_val j xj); (VS (chars "InverseJacobian"), arr_val i xi); (VS (chars "ChristoffelJacobian"), arr_val x xx)]) :: m).
    split; [cbn; now rewrite Km|]. cbn [map texts fst snd]. constructor; [|exact Fm]. cbn [fst snd key_code]. split; [apply ra_text, P|].
    destruct (xkey_eqb _ _); apply E. }
  exists (VD (texts m)). intros b. cbn [String.eqb Ascii.eqb Bool.eqb]. unfold texts in *. rewrite <- (assoc_texts L) by (rewrite Km; exact N). apply ra_dict, Fm.
Qed.

Lemma rules_read (l : list (string * K)) : Forall rule_back l -> exists es,
  Forall2 (fun r e => exists x y, reads (ksym (fst r)) x /\ reads (snd r) y /\ o_eq x y = Ok e) l es /\ map to_rule es = map REq l.
Proof.
  induction 1 as [|r l (x & y & e & R1 & R2 & Q & T) F (es & F' & T')]; [exists []; split; [constructor|reflexivity]|].
  exists (e :: es). cbn. rewrite T, T'. split; [constructor; eauto|reflexivity].
Qed.

Definition rules_value (v : val) (l : list (string * K)) : Prop := rules_arg v = map REq l.

Lemma reads_trans (L : CodeLaws) w n t o : coords_back w n t o -> exists tr,
  map fst tr = map (fun e => name_in w (fst e)) (o_trans o) /\
  Forall2 (fun p e => rules_value (snd p) (snd e)) tr (o_trans o) /\
  reads_entry "CoordTransformations" (XDict (trans_dict w o)) (VD (texts tr)).
Proof.
  intros (_ & _ & _ & _ & _ & _ & _ & _ & _ & _ & [N K] & F).
  assert (exists m, map fst m = map (fun e => name_in w (fst e)) (o_trans o) /\
     Forall2 (fun p e => rules_value (snd p) (snd e)) m (o_trans o) /\
     Forall2 (fun p v => reads_as false (key_code (fst p)) (fst v) /\
       reads_as false (if xkey_eqb (fst p) (KText "CoordTransformations") then value_code true false (snd p)
                    else value_code false true (snd p)) (snd v)) (trans_dict w o) (texts m)) as (m & Km & Vm & Fm).
  { unfold trans_dict. clear N. induction (o_trans o) as [|[c l] tl IH]; [exists []; split; [reflexivity|split; constructor]|].
    inversion K as [|? ? [_ P] K']; subst. inversion F as [|? ? (B1 & B2 & B3) F']; subst. destruct (IH K' F') as (m & Km & Vm & Fm). cbn [fst snd] in *.
    destruct (rules_read l B3) as (es & Fe & Te).
    exists ((name_in w c, VL (map VE es)) :: m). split; [cbn; now rewrite Km|]. split.
    - constructor; [|exact Vm]. cbn [snd]. unfold rules_value. cbn [rules_arg]. rewrite map_map. exact Te.
    - cbn [map texts fst snd]. constructor; [|exact Fm]. cbn [fst snd key_code xkey_eqb]. split; [apply ra_text, P|].
      destruct (String.eqb_spec (name_in w c) "CoordTransformations"); [contradiction|]. apply ra_rules, Fe. }
  exists m. split; [exact Km|]. split; [exact Vm|]. intros b. cbn [String.eqb Ascii.eqb Bool.eqb]. unfold texts in *.
  rewrite <- (assoc_texts L) by (rewrite Km; exact N). apply ra_dict, Fm.
Qed.

Lemma coords_read (L : CodeLaws) w n t o tail mtail : coords_back w n t o -> tails tail mtail ->
  exists tv sx tr, (forall b, reads_as b (association ((common_dict w CCoordinates o (o_name o)
    ++ match o_jacs o with [] => [] | _ => [(KText "Jacobians"%string, XDict (jac_dict w o))] end
    ++ [(KText "CoordTransformations"%string, XDict (trans_dict w o))]) ++ tail)) tv) /\
    to_symbol sx = Some (o_symbol o) /\
    map fst tr = map (fun e => name_in w (fst e)) (o_trans o) /\
    Forall2 (fun p e => rules_value (snd p) (snd e)) tr (o_trans o) /\
    forall w2 nm, registered_live w2 -> read_tensor nm tv w2 =
      (Ok (CCoordinates, mkKw nm [1]%Z (VSyms [n] (o_syms o)) (Some (VE sx)) None None (found_trans w2 tr)), w2).
Proof.
  intros H T. pose proof (coords_components L w n t o H) as Hc. destruct (reads_jacs L w n t o H) as (jv & Rj). destruct (reads_trans L w n t o H) as (tr & Kt & Vt & Rt).
  destruct H as (Ck & Ho & (Pn & Ns & (sx & Rs & Ts)) & Hn & Cs & Hi & Hl & Fs & _).
  destruct (ra_ints L) as [f G].
  assert (Nm : name_in w t = o_name o) by (unfold name_in; rewrite Ho; reflexivity).
  destruct (symbols_read L _ Fs) as (xs & Fx & Tx).
  assert (Cl : comp_list w o = [(([1]%Z, o_name o), XArr (mkArr [n] (map ksym (o_syms o))))]).
  { unfold comp_list, flat. rewrite Cs. cbn [flat_map map fst snd app]. rewrite Nm. unfold comp_value. cbn [data].
    destruct (is_expr o t), (o_syms o) as [|? [|? ?]]; try reflexivity. cbn in Hl. lia. }
  set (ks := map (fun e => cfg_key f (fst e)) (comp_list w o)).
  set (vs := [arr_val (mkArr [n] (map ksym (o_syms o))) xs]).
  assert (Rc : forall b, reads_as b (value_code true true (XDict (comp_dict w o))) (VT ks vs)).
  { intros b. apply (ra_components L f b); auto; rewrite Cl; [discriminate|]. constructor; [|constructor]. cbn [fst snd].
    split; [constructor; [auto|constructor]|]. split; [exact Pn|]. apply ra_arr; [unfold awf; cbn; rewrite map_length; lia|exact Fx]. }
  assert (Vi : valid_cfg (o_indices o)) by (rewrite Hi; constructor; [auto|constructor]).
  assert (Ff : find_components (VL (map (fun z => VE (f z)) (o_indices o))) (VS (chars (o_name o))) (combine ks vs) None = Ok (Some (VSyms [n] (o_syms o)))).
  { unfold ks. rewrite Cl. cbn [map fst]. rewrite (find_comps L f (o_indices o) (o_name o) (VSyms [n] (o_syms o)) [([1]%Z, o_name o)] vs G Vi).
    - cbn [existsb]. unfold is_target. cbn [fst snd]. rewrite Hi, cfg_eqb_refl, String.eqb_refl. reflexivity.
    - constructor; [|constructor]. cbn [fst]. split; [constructor; [auto|constructor]|]. intros _. apply repr_symbols; auto. }
  set (jm := match o_jacs o with [] => [] | _ => [("Jacobians"%string, jv)] end).
  exists (VD (texts ((common_vals f ks vs (o_name o) (o_indices o) CCoordinates sx ++ jm ++ [("CoordTransformations"%string, VD (texts tr))]) ++ mtail))), sx, tr.
  split; [|split; [exact Ts|split; [exact Kt|split; [exact Vt|]]]].
  - intros b. apply (ra_top L).
    + apply Forall2_app; [apply Forall2_app; [|apply Forall2_app]|apply tails_reads, T].
      * apply common_reads; auto.
      * unfold jm. destruct (o_jacs o); constructor; [|constructor]. split; [reflexivity|]. split; [plain_now|]. exact Rj.
      * constructor; [|constructor]. split; [reflexivity|]. split; [plain_now|]. exact Rt.
    + apply once_spec. unfold jm. destruct T as [[-> ->]|[-> ->]], (o_jacs o); reflexivity.
  - intros w2 nm R. rewrite (read_tensor_run w2 nm _ CCoordinates (o_name o) (VL (map (fun z => VE (f z)) (o_indices o))) (o_indices o) ks vs (VSyms [n] (o_syms o)) (VE sx) ""%string tr); auto.
    + rewrite Hi. reflexivity.
    + apply tuple_of_ints; auto.
    + unfold jm. destruct T as [[-> ->]|[-> ->]], (o_jacs o); reflexivity.
Qed.

End Export3.
