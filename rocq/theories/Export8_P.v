(** Proofs about export and import: when an export succeeds, and imports that fail. *)
From Verif Require Import Base LexM ParseM InterpM SpecParse Term2_P Value_P WorldM SpecWorld World_P
  Registry_P Run_P Alg Arr Arr_P Typed_P Self_P ExportM SpecExport Export_P Export2_P Export3_P Export4_P Export7_P.
From Coq Require Import Ascii.
Import List.

Section Export8.
Context {A : AlgOps} {O : PyOps} {C : CodeOps}.

(** *** When an object can be exported *)
Lemma comprehension_ok {X} (f : X -> M (option (xkey * xval))) l w :
  (forall x, In x l -> exists p, f x w = (Ok p, w)) -> forall d, exists r, comprehension f l d w = (Ok r, w).
Proof.
  induction l as [|x l IH]; intros H d; cbn [comprehension]; [eexists; reflexivity|].
  destruct (H x (or_introl eq_refl)) as [p Hp]. rewrite (bind_to _ _ _ _ _ Hp). apply IH. intros y Y. apply H. right. exact Y.
Qed.

Lemma comprehension_err {X} (f : X -> M (option (xkey * xval))) l w e :
  (forall x, In x l -> f x w = (Err e, w) \/ exists p, f x w = (Ok p, w)) -> (exists x, In x l /\ f x w = (Err e, w)) ->
  forall d, comprehension f l d w = (Err e, w).
Proof.
  induction l as [|x l IH]; intros H (y & Y & Hy) d; [destruct Y|]. cbn [comprehension].
  destruct (H x (or_introl eq_refl)) as [Hx|[p Hx]].
  - unfold mbind. rewrite Hx. reflexivity.
  - rewrite (bind_to _ _ _ _ _ Hx). apply IH; [intros z Z; apply H; right; exact Z|]. destruct Y as [->|Y]; [congruence|]. exists y. auto.
Qed.

Lemma name_ok w i : obj_of w i <> None -> exists s, name_at i w = (Ok s, w).
Proof. intros H. unfold name_at, mbind, getobj. destruct (obj_of w i); [eexists; reflexivity|congruence]. Qed.
Lemma name_err w i : obj_of w i = None -> name_at i w = (Err EAttributeError, w).
Proof. intros H. unfold name_at, mbind, getobj. now rewrite H. Qed.

Section One.
Variables (w : world) (i : oid) (o : obj).
Hypothesis (J : integrity w) (Hi : In i (insts w)) (Ho : obj_of w i = Some o).

Lemma refers_live j : refers o j -> obj_of w j <> None.
Proof. intros R. destruct J as [[_ H1] H2]. apply H1. apply (H2 i o j Hi Ho R). Qed.

Lemma comps_ok : exists r, comprehension (fun p : oid * (list Z * arr) =>
      let! b := isinstance (fst p) CCoordinates in
      if negb b then mret None else
      let! n := name_at (fst p) in
      mret (Some (KConfig (fst (snd p)) n, comp_value o (fst p) (snd (snd p)))))
    (flat_map (fun cd => map (pair (fst cd)) (snd cd)) (o_comps o)) [] w = (Ok r, w).
Proof.
  apply comprehension_ok. intros [c [cfg a]] Hp. apply in_flat_map in Hp as ([c' d] & Hc & Hp). apply in_map_iff in Hp as (x & E & _). injection E as <- _. cbn [fst snd].
  unfold mbind at 1, isinstance. destruct (negb _); [eexists; reflexivity|].
  destruct (name_ok w c') as [s Hs]. { apply refers_live. left. apply (in_map fst) in Hc. exact Hc. }
  rewrite (bind_to _ _ _ _ _ Hs). eexists; reflexivity.
Qed.

Lemma trans_ok : exists r, comprehension (fun p : oid * list (string * K) =>
          let! n := name_at (fst p) in
          mret (Some (KText n, XDict (fold_left (fun d r =>
                dset xkey_eqb (KSymbol (fst r)) (XExpr (snd r)) d) (snd p) []))))
        (o_trans o) [] w = (Ok r, w).
Proof.
  apply comprehension_ok. intros [j l] Hp. destruct (name_ok w j) as [s Hs]. { apply refers_live. right; right; right. apply (in_map fst) in Hp. exact Hp. }
  cbn [fst snd]. rewrite (bind_to _ _ _ _ _ Hs). eexists; reflexivity.
Qed.

Lemma jacs_found : (forall j, In j (map fst (o_jacs o)) -> obj_of w j <> None) -> exists r, comprehension (fun p : oid * (arr * arr * arr) =>
          let! n := name_at (fst p) in
          let '(j, i, c) := snd p in
          mret (Some (KText n, XDict [(KText "Jacobian", XArr j); (KText "InverseJacobian", XArr i);
                                      (KText "ChristoffelJacobian", XArr c)]%string)))
        (o_jacs o) [] w = (Ok r, w).
Proof.
  intros H. apply comprehension_ok. intros [j [[a b] c]] Hp. destruct (name_ok w j) as [s Hs].
  { apply H. apply (in_map fst) in Hp. exact Hp. }
  cbn [fst snd]. rewrite (bind_to _ _ _ _ _ Hs). eexists; reflexivity.
Qed.

Lemma dict_start k : cls_of w i = Some k -> exists comps, tensor_to_dict i w =
  (let! dc := match k with
             | CCoordinates => mret (o_name o)
             | _ => let! c := mopt EAttributeError (o_coords o) in name_at c
             end in
  let d := [(KText "Components", XDict comps);
            (KText "DefaultCoords", XText dc);
            (KText "DefaultIndices", XTuple (o_indices o));
            (KText "Role", XText (role_name k));
            (KText "Symbol", XSymbol (if String.eqb (o_symbol o) "" then "T" else o_symbol o))]%string in
  match k with
  | CCoordinates =>
      let! js := comprehension (fun p : oid * (arr * arr * arr) =>
          let! n := name_at (fst p) in
          let '(j, i, c) := snd p in
          mret (Some (KText n, XDict [(KText "Jacobian", XArr j); (KText "InverseJacobian", XArr i);
                                      (KText "ChristoffelJacobian", XArr c)]%string)))
        (o_jacs o) [] in
      let! ts := comprehension (fun p : oid * list (string * K) =>
          let! n := name_at (fst p) in
          mret (Some (KText n, XDict (fold_left (fun d r =>
                dset xkey_eqb (KSymbol (fst r)) (XExpr (snd r)) d) (snd p) []))))
        (o_trans o) [] in
      mret (d ++ match o_jacs o with [] => [] | _ => [(KText "Jacobians"%string, XDict js)] end
              ++ [(KText "CoordTransformations"%string, XDict ts)])
  | _ =>
      let! m := mopt EAttributeError (o_metric o) in
      let! n := name_at m in
      mret (d ++ [(KText "Metric"%string, XText n)])
  end) w.
Proof.
  intros Hk. destruct comps_ok as [comps Hc]. exists comps. unfold tensor_to_dict.
  rewrite (bind_to (getobj i) _ w o w) by (unfold getobj; now rewrite Ho).
  rewrite (bind_to (fun w => mopt EAttributeError (cls_of w i) w) _ w k w) by (rewrite Hk; reflexivity).
  rewrite (bind_to _ _ _ _ _ Hc). reflexivity.
Qed.

Lemma export_of_dict d : tensor_to_dict i w = (Ok d, w) -> exists s, export_to_string i w = (Ok s, w).
Proof.
  intros E. unfold export_to_string. rewrite (bind_to _ _ _ _ _ E). destruct (name_ok w i) as [s Hs]; [congruence|]. rewrite (bind_to _ _ _ _ _ Hs). eexists; reflexivity.
Qed.
Lemma export_of_err e : tensor_to_dict i w = (Err e, w) -> export_to_string i w = (Err e, w).
Proof. intros E. unfold export_to_string, mbind. now rewrite E. Qed.

Lemma coords_dict : cls_of w i = Some CCoordinates ->
  ((forall j, In j (map fst (o_jacs o)) -> obj_of w j <> None) -> exists d, tensor_to_dict i w = (Ok d, w)) /\
  ((exists j, In j (map fst (o_jacs o)) /\ obj_of w j = None) -> tensor_to_dict i w = (Err EAttributeError, w)).
Proof.
  intros Hk. destruct (dict_start _ Hk) as [comps E]. rewrite E. clear E. cbv zeta. rewrite (bind_to _ _ w (o_name o) w) by reflexivity. split.
  - intros H. destruct (jacs_found H) as [js Hj]. rewrite (bind_to _ _ _ _ _ Hj). destruct trans_ok as [ts Ht]. rewrite (bind_to _ _ _ _ _ Ht). eexists; reflexivity.
  - intros (j & Hj & Hn). unfold mbind at 1. rewrite (comprehension_err _ (o_jacs o) w EAttributeError); [reflexivity| |].
    + intros [x [[a b] c]] _. cbn [fst snd]. destruct (obj_of w x) eqn:Ex.
      * right. destruct (name_ok w x) as [s Hs]; [congruence|]. rewrite (bind_to _ _ _ _ _ Hs). eexists; reflexivity.
      * left. unfold mbind. rewrite (name_err _ _ Ex). reflexivity.
    + apply in_map_iff in Hj as ([x [[a b] c]] & <- & Hp). exists (x, (a, b, c)). split; [exact Hp|]. cbn [fst snd] in *. unfold mbind. rewrite (name_err _ _ Hn). reflexivity.
Qed.

Lemma tensor_dict : cls_of w i <> Some CCoordinates -> o_coords o <> None -> o_metric o <> None -> exists d, tensor_to_dict i w = (Ok d, w).
Proof.
  intros Hk Hc Hm. destruct (cls_of w i) as [k|] eqn:Ek.
  2:{ destruct (obj_of_cls _ _ _ Ho) as [k E]. unfold cls_of in Ek. rewrite E in Ek. discriminate. }
  destruct (dict_start _ Ek) as [comps E]. rewrite E. clear E. cbv zeta.
  destruct (o_coords o) as [c|] eqn:Ec; [|congruence]. destruct (o_metric o) as [m|] eqn:Em; [|congruence].
  destruct (name_ok w c) as [s Hs]; [apply refers_live; right; right; left; exact Ec|].
  destruct (name_ok w m) as [s' Hs']; [apply refers_live; right; left; exact Em|].
  assert (Hd : (let! c := mopt EAttributeError (Some c) in name_at c) w = (Ok s, w)) by exact Hs.
  destruct k; try congruence; rewrite (bind_to _ _ _ _ _ Hd); rewrite (bind_to _ _ w m w) by reflexivity; rewrite (bind_to _ _ _ _ _ Hs'); eexists; reflexivity.
Qed.
End One.

Theorem coordinates_exported w i o : integrity w -> In i (insts w) -> cls_of w i = Some CCoordinates -> obj_of w i = Some o ->
  ((forall j, In j (map fst (o_jacs o)) -> obj_of w j <> None) -> exists s, export_to_string i w = (Ok s, w)) /\
  ((exists j, In j (map fst (o_jacs o)) /\ obj_of w j = None) -> export_to_string i w = (Err EAttributeError, w)).
Proof.
  intros J Hi Hk Ho. destruct (coords_dict w i o J Hi Ho Hk) as [H1 H2]. split.
  - intros H. destruct (H1 H) as [d Hd]. eapply export_of_dict; eassumption.
  - intros H. apply export_of_err, H2, H.
Qed.

Theorem others_exported w i : healthy w -> In i (insts w) -> cls_of w i <> Some CCoordinates -> exists s, export_to_string i w = (Ok s, w).
Proof.
  intros R Hi Hk. pose proof (proj1 R) as J. destruct (proj1 (proj2 R)) as [_ K].
  destruct (obj_of w i) as [o|] eqn:Ho; [|destruct (proj2 (proj1 J) i Hi Ho)]. destruct (K i o Ho Hk) as [Hm Hc].
  destruct (tensor_dict w i o J Hi Ho Hk Hc Hm) as [d Hd]. eapply export_of_dict; eassumption.
Qed.

(** A session is exported if and only if every object is. *)
Lemma all_ok {X Y} (f : X -> M Y) l w : (forall x, In x l -> exists y, f x w = (Ok y, w)) -> exists ys, mmap f l w = (Ok ys, w).
Proof.
  induction l as [|x l IH]; intros H; cbn [mmap]; [eexists; reflexivity|]. destruct (H x (or_introl eq_refl)) as [y Hy]. rewrite (bind_to _ _ _ _ _ Hy).
  destruct IH as [ys Hys]; [intros z Z; apply H; right; exact Z|]. rewrite (bind_to _ _ _ _ _ Hys). eexists; reflexivity.
Qed.
Lemma all_err {X Y} (f : X -> M Y) l w e : (forall x, In x l -> f x w = (Err e, w) \/ exists y, f x w = (Ok y, w)) ->
  (exists x, In x l /\ f x w = (Err e, w)) -> mmap f l w = (Err e, w).
Proof.
  induction l as [|x l IH]; intros H (y & Y0 & Hy); [destruct Y0|]. cbn [mmap]. destruct (H x (or_introl eq_refl)) as [Hx|[p Hx]].
  - unfold mbind. now rewrite Hx.
  - rewrite (bind_to _ _ _ _ _ Hx). unfold mbind. rewrite IH; [reflexivity|intros z Z; apply H; right; exact Z|]. destruct Y0 as [->|Y0]; [congruence|eauto].
Qed.

Theorem session_exported w : healthy w ->
  ((forall i o j, In i (insts w) -> cls_of w i = Some CCoordinates -> obj_of w i = Some o -> In j (map fst (o_jacs o)) -> obj_of w j <> None) ->
   exists s, export_all_to_string w = (Ok s, w)) /\
  ((exists i o j, In i (insts w) /\ cls_of w i = Some CCoordinates /\ obj_of w i = Some o /\ In j (map fst (o_jacs o)) /\ obj_of w j = None) ->
   export_all_to_string w = (Err EAttributeError, w)).
Proof.
  intros R. pose proof (proj1 R) as J. destruct (proj1 (proj2 R)) as [_ K].
  assert (N : forall i, In i (insts w) -> exists o, obj_of w i = Some o).
  { intros i Hi. destruct (obj_of w i) as [o|] eqn:Ho; [eauto|destruct (proj2 (proj1 J) i Hi Ho)]. }
  assert (D : forall i, In i (insts w) -> cls_of w i <> Some CCoordinates -> exists d, tensor_to_dict i w = (Ok d, w)).
  { intros i Hi Hk. destruct (N i Hi) as [o Ho]. destruct (K i o Ho Hk) as [Hm Hc]. exact (tensor_dict w i o J Hi Ho Hk Hc Hm). }
  assert (F : forall i r, In i (insts w) -> tensor_to_dict i w = (r, w) ->
     (fun t => let! n := name_at t in let! d := tensor_to_dict t in mret (in_quotes n ++ chars "->" ++ association d)) i w =
     (match r with Ok d => Ok (in_quotes (name_in w i) ++ chars "->" ++ association d) | Err e => Err e end, w)).
  { intros i r Hi E. destruct (N i Hi) as [o Ho]. cbv beta. rewrite (bind_to (name_at i) _ w (name_in w i) w).
    2:{ unfold name_at, mbind, getobj, name_in. now rewrite Ho. }
    unfold mbind. rewrite E. destruct r; reflexivity. }
  unfold export_all_to_string. split.
  - intros H. assert (E : exists r, mmap (fun t => let! n := name_at t in let! d := tensor_to_dict t in mret (in_quotes n ++ chars "->" ++ association d)) (insts w) w = (Ok r, w)).
    { apply all_ok. intros i Hi.
      assert (E : exists d, tensor_to_dict i w = (Ok d, w)).
      { destruct (cls_of w i) as [k|] eqn:Ek; [|apply D; congruence]. destruct k; try (apply D; congruence).
        destruct (N i Hi) as [o Ho]. apply (coords_dict w i o J Hi Ho Ek). intros j. exact (H i o j Hi Ek Ho). }
      destruct E as [d E]. rewrite (F i _ Hi E). eexists; reflexivity. }
    destruct E as [r E]. rewrite (bind_to _ _ _ _ _ E). eexists; reflexivity.
  - intros (i & o & j & Hi & Hk & Ho & Hj & Hn). unfold mbind at 1. rewrite (all_err _ (insts w) w EAttributeError); [reflexivity| |].
    + intros x Hx. destruct (cls_of w x) as [k|] eqn:Ek.
      2:{ right. destruct (D x Hx) as [d E]; [congruence|]. rewrite (F x _ Hx E). eexists; reflexivity. }
      destruct k; try (right; destruct (D x Hx) as [d E]; [congruence|]; rewrite (F x _ Hx E); eexists; reflexivity).
      destruct (N x Hx) as [ox Hox]. destruct (coords_dict w x ox J Hx Hox Ek) as [H1 H2].
      assert (Dec : (exists j, In j (map fst (o_jacs ox)) /\ obj_of w j = None) \/ (forall j, In j (map fst (o_jacs ox)) -> obj_of w j <> None)).
      { clear. induction (map fst (o_jacs ox)) as [|y l IH]; [right; intros j []|]. destruct (obj_of w y) eqn:Ey; [|left; exists y; split; [left; reflexivity|exact Ey]].
        destruct IH as [(j & Hj & Hn)|H]; [left; exists j; split; [right|]; assumption|]. right. intros j [<-|Hj]; [congruence|apply H, Hj]. }
      destruct Dec as [Dx|Dx].
      * left. rewrite (F x _ Hx (H2 Dx)). reflexivity.
      * right. destruct (H1 Dx) as [d E]. rewrite (F x _ Hx E). eexists; reflexivity.
    + exists i. split; [exact Hi|]. rewrite (F i (Err EAttributeError) Hi); [reflexivity|]. apply (coords_dict w i o J Hi Ho Hk). eauto.
Qed.

(** *** Imports that fail *)
Theorem unreadable_import n s w e : registry_ok w -> parse_str n s = Err e ->
  import_from_string n s w = (Err e, w) /\ exists w', import_all_from_string n s w = (Err e, w') /\ insts w' = [].
Proof.
  intros R E. split.
  - unfold import_from_string, string_to_tensor, mbind, mlift. now rewrite E.
  - destruct (clear_instances_spec w R) as (w0 & Cl & I0). exists w0. split; [|exact I0]. unfold import_all_from_string. rewrite (bind_to _ _ _ _ _ Cl).
    unfold string_to_tensor, mbind, mlift. now rewrite E.
Qed.

(** *** The arrays that are read have as many entries as their shapes say *)
Section ValInd.
Variable P : val -> Prop.
Hypothesis HE : forall e, P (VE e).
Hypothesis HS : forall t, P (VS t).
Hypothesis HL : forall l, Forall P l -> P (VL l).
Hypothesis HD : forall l, P (VD l).
Hypothesis HT : forall a b, P (VT a b).
Fixpoint val_lists_ind (v : val) : P v :=
  match v with
  | VE e => HE e | VS t => HS t
  | VL l => HL l ((fix go l : Forall P l := match l with [] => Forall_nil _ | x :: l' => Forall_cons _ (val_lists_ind x) (go l') end) l)
  | VD l => HD l | VT a b => HT a b
  end.
End ValInd.

Lemma scan_length v : forall sh es, scan v = Ok (sh, es) -> length es = prodn sh.
Proof.
  induction v as [e|t|l F|l|a b] using val_lists_ind; intros sh es E; cbn [scan] in E; try discriminate.
  - injection E as <- <-. reflexivity.
  - destruct (rall (map scan l)) as [ps|] eqn:Er; [|discriminate]. cbn [rbind] in E.
    assert (G : Forall (fun p => length (snd p) = prodn (fst p)) ps).
    { clear E. revert ps Er. induction F as [|v l Fv F IH]; intros ps Er; cbn [map rall] in Er; [injection Er as <-; constructor|].
      destruct (scan v) as [[sh1 es1]|] eqn:Ev; [|discriminate]. cbn [rbind] in Er. destruct (rall (map scan l)) as [qs|]; [|discriminate]. injection Er as <-.
      constructor; [apply Fv; reflexivity|apply IH; reflexivity]. }
    destruct ps as [|p ps']; [injection E as <- <-; reflexivity|]. destruct (forallb _ _) eqn:Ef; [|discriminate]. injection E as <- <-.
    rewrite forallb_forall in Ef. clear Er.
    enough (H : forall qs : list (list nat * list E), Forall (fun p => length (snd p) = prodn (fst p)) qs -> (forall x, In x qs -> fst x = fst p) -> length (flat_map snd qs) = length qs * prodn (fst p)).
    { apply (H (p :: ps') G). intros x X. specialize (Ef x X). destruct (list_eq_dec Nat.eq_dec (fst x) (fst p)); [assumption|discriminate]. }
    clear. induction 1 as [|q l Hq F IH]; intros H; [reflexivity|]. cbn [flat_map length]. rewrite app_length, Hq, IH by (intros x X; apply H; right; exact X).
    rewrite (H q (or_introl eq_refl)). reflexivity.
Qed.

Definition well_shaped (v : pyval) : Prop := forall a, array_like v a -> awf a.

Lemma all_some_length {X} (l : list (option X)) r : all_some l = Some r -> length r = length l.
Proof.
  revert r. induction l as [|[x|] l IH]; intros r E; cbn in E; try discriminate; [injection E as <-; reflexivity|].
  destruct (all_some l) as [q|]; [|discriminate]. injection E as <-. cbn. f_equal. apply IH. reflexivity.
Qed.

Lemma array_arg_shape v p : array_arg v = Ok p -> well_shaped p.
Proof.
  unfold array_arg. destruct (scan v) as [[sh es]|] eqn:Es; [|discriminate]. cbn [rbind fst snd]. apply scan_length in Es.
  destruct (all_some (map to_symbol es)) as [l|] eqn:El; [|destruct (all_some (map to_scalar es)) as [l|] eqn:El'; [|discriminate]].
  - intros E. injection E as <-. intros a [H|[H|(sh' & l' & H & ->)]]; try discriminate. injection H as <- <-. unfold awf. cbn [data shape].
    rewrite map_length. apply all_some_length in El. rewrite El, map_length. exact Es.
  - intros E. injection E as <-. intros a [H|[H|(sh' & l' & H & _)]]; try discriminate. injection H as <-. unfold awf. cbn [data shape].
    apply all_some_length in El'. rewrite El', map_length. exact Es.
Qed.

Lemma representation_shape v p : representation v = Ok p -> well_shaped p.
Proof. unfold representation. destruct v as [| |[|x [|y l]]| |]; try discriminate; apply array_arg_shape. Qed.

Lemma find_shape i c l : forall f p, (forall p, f = Some p -> well_shaped p) -> find_components i c l f = Ok (Some p) -> well_shaped p.
Proof.
  induction l as [|[cfg rep] l IH]; intros f p Hf E; cbn [find_components] in E; [injection E as ->; apply Hf; reflexivity|].
  destruct (at_index 0 cfg) as [x|]; [|discriminate]. cbn [rbind] in E. destruct (negb _); [eapply IH; eassumption|].
  destruct (at_index 1 cfg) as [y|]; [|discriminate]. cbn [rbind] in E. destruct (negb _); [eapply IH; eassumption|].
  destruct (representation rep) as [q|] eqn:Er; [|discriminate]. cbn [rbind] in E. eapply IH; [|exact E]. intros p' E'. injection E' as <-. eapply representation_shape, Er.
Qed.

Lemma read_tensor_shape name tensor w p w' : read_tensor name tensor w = (Ok p, w') -> well_shaped (k_comps (snd p)).
Proof.
  unfold read_tensor. intros E.
  repeat (match type of E with mbind (mlift ?r) _ _ = _ => let X := fresh "X" in destruct r as [?|?] eqn:X; unfold mbind at 1, mlift at 1 in E; [|discriminate] end).
  match type of E with mbind (mopt _ ?f) _ _ = _ => destruct f as [comps|] end; [|discriminate]. unfold mbind at 1, mopt at 1, mret at 1 in E.
  repeat (match type of E with mbind (mlift ?r) _ _ = _ => let X := fresh "Y" in destruct r as [?|?] eqn:X; unfold mbind at 1, mlift at 1 in E; [|discriminate] end).
  match type of E with mbind ?m _ _ = _ => unfold mbind at 1 in E; destruct (m w) as [[m'|] w1] end; [|discriminate].
  match type of E with mbind ?m _ _ = _ => unfold mbind at 1 in E; destruct (m w1) as [[tr|] w2] end; [|discriminate].
  unfold mret in E. injection E as <- _. cbn [snd k_comps].
  match goal with X : find_components _ _ _ None = Ok (Some comps) |- _ => eapply find_shape; [|exact X]; discriminate end.
Qed.

Lemma read_tensors_shape d : forall w l w', read_tensors d w = (Ok l, w') -> Forall (fun p => well_shaped (k_comps (snd p))) l.
Proof.
  induction d as [|[name tensor] d IH]; intros w l w' E; cbn [read_tensors] in E; [injection E as <- _; constructor|].
  destruct (key_same _ _); [eapply IH, E|]. unfold mbind at 1 in E. destruct (read_tensor name tensor w) as [[p|] w1] eqn:E1; [|discriminate].
  unfold mbind in E. destruct (read_tensors d w1) as [[r|] w2] eqn:E2; [|discriminate]. injection E as <- _. constructor; [eapply read_tensor_shape, E1|eapply IH, E2].
Qed.

Lemma import_args_shape n s w p w' : import_args n s w = (Ok p, w') -> well_shaped (k_comps (snd p)).
Proof.
  unfold import_args, string_to_tensor. intros E. unfold mbind at 1 in E.
  match type of E with match ?m w with _ => _ end = _ => destruct (m w) as [[l|] w1] eqn:E1 end; [|discriminate].
  assert (F : Forall (fun p => well_shaped (k_comps (snd p))) l).
  { unfold mbind in E1. destruct (mlift (parse_str n s) w) as [[v|] w2]; [|discriminate]. destruct (mlift (items v) w2) as [[d|] w3]; [|discriminate]. eapply read_tensors_shape, E1. }
  destruct F as [|[k kw] l H _]; [discriminate|]. cbn [hd_error mopt snd] in *. unfold mbind at 1, mret at 1 in E.
  destruct (k_coords kw) as [[v|i]|]; [|injection E as <- _; exact H..].
  unfold mbind in E. destruct (first_named v w1) as [[[i|]|] w2]; [|discriminate..]. injection E as <- _. exact H.
Qed.

Theorem import_clean {DL : DetLaws A} n s w : registry_ok w -> clean_outcome w (import_from_string n s w).
Proof.
  intros R. rewrite import_split. unfold mbind. pose proof (l_import_args n s w) as H.
  destruct (import_args n s w) as [[[k kw]|e] w'] eqn:E; [destruct H as [-> H]|subst w'; reflexivity].
  apply import_args_shape in E. cbn [fst snd] in *. unfold construct.
  assert (T : forall k', clean_outcome w (new_tensor_as k' (value_arg (k_name kw)) (k_comps kw) (object_arg (k_metric kw)) (object_arg (k_coords kw)) (VTuple (k_indices kw)) (symbol_arg k kw) w))
    by (intros k'; apply new_tensor_clean, R).
  destruct k; [|destruct (k_trans kw); [|reflexivity]; first [apply T|apply new_metric_clean; [exact R|exact E]]..].
  destruct (all_some _); [apply new_coordinates_clean, R|reflexivity].
Qed.

End Export8.
