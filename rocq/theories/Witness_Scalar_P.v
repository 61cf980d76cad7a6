(** Concrete scalars. *)
From Coq Require Import QArith.
From Verif Require Import Base Alg Alg_P Arr Arr_P Spec UtilsM Arr2_P Act_P TensorM Inst Ex WorldM SpecWorld World_P Registry_P CalcM SpecCalc Calc_P Calc2_P Calc3_P
  ExWorld Witness_World_P Witness_History_P Witness_Calc_P LexM ParseM InterpM SpecParse ExportM SpecExport ExExport Witness_Export_P Witness2_Export_P SpecScalar Scalar_P.
Import List.
Local Open Scope nat_scope.

(** ex_w with coordinates p, q (object 4) reached from u, v, and two scalars made in x, y
    (objects 5 and 6); u, v are now the default coordinates of the second one and of the
    vector (object 3), whose components in p, q were asked for. *)
Definition ex_scal : @arr PolyOps := @mkArr PolyOps [] [PMul (pv "x") (pv "y")].
Definition ex_pq_rules : list (string * @K PolyOps) := [("u", pv "p"); ("v", PAdd (pv "q") (pv "p"))]%string.
Definition ex_scalar_w : @world PolyOps := run_all
  [OpCoordinates (ex_str "PQ") (VSyms [2] ["p"; "q"]%string) (VTuple [1]%Z) (ex_str "p") [];
   OpAdd 1 (VObj 4) (Some (map REq ex_pq_rules));
   OpTensor (ex_str "S") (VArr ex_scal) (VObj 2) (VObj 0) (VTuple []) (ex_str "S");
   OpTensor (ex_str "Q") (VArr ex_scal) (VObj 2) (VObj 0) (VTuple []) (ex_str "Q");
   OpCoords 6 1; OpCoords 3 1; OpGet 3 (Some 4) (Some [1]%Z)] ex_w.
Lemma ex_scalar_reachable : reachable ex_scalar_w.
Proof. apply run_all_reachable; [apply ex_w_reachable|vmtrue]. Qed.

Definition elsewhereb (o : @obj PolyOps) (c : oid) : bool := is_expr o c.
Lemma scalar_view (w : @world PolyOps) t c m n e :
  obj_view w t (fun o => cfg_eqb (o_indices o) [] && (o_rank o =? 0) && opt_eqb (o_coords o) c && opt_eqb (o_metric o) m &&
    default_storedb n o c && Bool.eqb (is_expr o c) e) false = true ->
  exists o a, obj_of w t = Some o /\ o_indices o = [] /\ o_rank o = 0 /\ o_coords o = Some c /\ o_metric o = Some m /\
    stored_default o c a /\ cubic n a /\ rank a = 0 /\ (if e then made_elsewhere o c else ~ made_elsewhere o c).
Proof.
  unfold obj_view. destruct (obj_of w t) as [o|]; [|discriminate]. intros H.
  apply andb_prop in H as [H H6]. apply andb_prop in H as [H H5]. apply andb_prop in H as [H H4]. apply andb_prop in H as [H H3]. apply andb_prop in H as [H1 H2].
  apply cfg_eqb_spec in H1. apply Nat.eqb_eq in H2. apply opt_eqb_spec in H3, H4. apply Bool.eqb_prop in H6.
  destruct (default_storedb_spec n o c H3 H5) as (a & S & C & R). exists o, a. rewrite H1 in R.
  assert (X : if e then made_elsewhere o c else ~ made_elsewhere o c).
  { destruct e; [apply elsewhere_expr, H6|]. intros N. apply elsewhere_expr in N. congruence. }
  auto 12.
Qed.

Lemma scalar_get t c o a : clsb ex_scalar_w t CTensor = true -> clsb ex_scalar_w c CCoordinates = true ->
  obj_of ex_scalar_w t = Some o -> o_indices o = [] -> o_rank o = 0 -> stored_default o c a ->
  get_components t (Some c) (Some []) ex_scalar_w = (Ok a, ex_scalar_w).
Proof.
  intros K1 K2 H1 H2 H3 H6. rewrite <- H2. apply (stored_default_get ex_scalar_w t CTensor o c a); auto; [apply clsb_spec, K1|discriminate|apply clsb_spec, K2| |].
  - rewrite H2. constructor.
  - rewrite H2, H3. reflexivity.
Qed.

(** C113: a tensor with a representation in two coordinate systems *)
Lemma ex_simplify_hyps : exists o, obj_of ex_scalar_w 3 = Some o /\ o_coords o = Some 1 /\ coordinate_system ex_scalar_w 1 2 /\ 0 < o_rank o /\ length (o_comps o) = 3.
Proof.
  assert (H : obj_view ex_scalar_w 3 (fun o => opt_eqb (o_coords o) 1 && (0 <? o_rank o) && (length (o_comps o) =? 3)) false = true) by vmtrue.
  unfold obj_view in H. destruct (obj_of ex_scalar_w 3) as [o|]; [|discriminate H]. apply andb_prop in H as [H H3]. apply andb_prop in H as [H1 H2].
  exists o. split; [reflexivity|]. split; [apply opt_eqb_spec, H1|]. split; [apply systemb_spec; vmtrue|]. split; [apply Nat.ltb_lt, H2|apply Nat.eqb_eq, H3].
Qed.

(** C114 *)
Lemma simplify_witness : exists (w : @world PolyOps) t v w1, reachable w /\ In t (insts w) /\ In v (insts w) /\ cls_of w t = Some CTensor /\ cls_of w v = Some CTensor /\
  simplify_tensor v w = (Ok tt, w1) /\ simplify_tensor t w = (Err EValueError, w).
Proof.
  destruct (out_ok (simplify_tensor 3) ex_scalar_w) as (u & w1 & E & _); [vmtrue|]. destruct u.
  destruct (scalar_view ex_scalar_w 5 0 2 2 false) as (o & a & H1 & H2 & H3 & H4 & H5 & H6 & _); [vmtrue|].
  exists ex_scalar_w, 5, 3, w1. split; [apply ex_scalar_reachable|]. do 2 (split; [apply inb_list_spec; vmtrue|]). do 2 (split; [apply clsb_spec; vmtrue|]). split; [exact E|].
  apply (simplify_scalar _ _ o 0 2 a); auto. apply systemb_spec; vmtrue.
Qed.

(** C115 *)
Lemma chain_witness : exists (w : @world PolyOps) t v c d a b w1 w2 w3 w4, reachable w /\ In t (insts w) /\ In v (insts w) /\ In c (insts w) /\
  (exists ot ov, obj_of w t = Some ot /\ obj_of w v = Some ov /\ o_coords ot = Some d /\ o_coords ov = Some d) /\
  get_components t (Some d) (Some []) w = (Ok a, w) /\
  get_components v (Some c) None w = (Ok b, w1) /\
  get_components t (Some c) None w = (Err EAttributeError, w2) /\
  change_default_coords v c w = (Ok tt, w3) /\
  change_default_coords t c w = (Err EAttributeError, w4).
Proof.
  destruct (scalar_view ex_scalar_w 6 1 2 2 true) as (o & a & H1 & H2 & H3 & H4 & H5 & H6 & _); [vmtrue|].
  destruct (view_spec ex_scalar_w 3 [1]%Z 1 2) as (ov & A1 & A2 & A3 & A4 & A5); [vmtrue|].
  destruct (out_ok (get_components 3 (Some 4) None) ex_scalar_w) as (b & w1 & E1 & _); [vmtrue|].
  destruct (out_ok (change_default_coords 3 4) ex_scalar_w) as (u & w3 & E2 & _); [vmtrue|]. destruct u.
  destruct (out_err (get_components 6 (Some 4) None) EAttributeError ex_scalar_w) as (w2 & E3 & _); [vmtrue|].
  destruct (out_err (change_default_coords 6 4) EAttributeError ex_scalar_w) as (w4 & E4 & _); [vmtrue|].
  assert (K6 : clsb ex_scalar_w 6 CTensor = true) by vmtrue. assert (K1 : clsb ex_scalar_w 1 CCoordinates = true) by vmtrue.
  assert (G := scalar_get 6 1 o a K6 K1 H1 H2 H3 H6).
  exists ex_scalar_w, 6, 3, 4, 1, a, b, w1, w2, w3, w4. split; [apply ex_scalar_reachable|]. do 3 (split; [apply inb_list_spec; vmtrue|]).
  split; [exists o, ov; auto|]. auto.
Qed.
Lemma ex_chain_hyps : exists o a co J rules,
  obj_of ex_scalar_w 6 = Some o /\ stored_default o 1 a /\ o_indices o = [] /\ made_elsewhere o 1 /\ ~ In 4 (map fst (o_comps o)) /\
  cls_of ex_scalar_w 6 = Some CTensor /\ cls_of ex_scalar_w 4 = Some CCoordinates /\
  obj_of ex_scalar_w 1 = Some co /\ dget Nat.eqb 4 (o_jacs co) = Some J /\ dget Nat.eqb 4 (o_trans co) = Some rules.
Proof.
  destruct (scalar_view ex_scalar_w 6 1 2 2 true) as (o & a & H1 & H2 & H3 & H4 & H5 & H6 & _ & _ & H7); [vmtrue|].
  assert (C : obj_view ex_scalar_w 6 (fun o => negb (inb_list 4 (map fst (o_comps o)))) false = true) by vmtrue.
  unfold obj_view in C. rewrite H1 in C. apply negb_true_iff in C.
  assert (E : obj_view ex_scalar_w 1 (fun o => match dget Nat.eqb 4 (o_jacs o), dget Nat.eqb 4 (o_trans o) with Some _, Some _ => true | _, _ => false end) false = true) by vmtrue.
  unfold obj_view in E. destruct (obj_of ex_scalar_w 1) as [co|]; [|discriminate E]. destruct (dget Nat.eqb 4 (o_jacs co)) as [J|] eqn:EJ; [|discriminate E].
  destruct (dget Nat.eqb 4 (o_trans co)) as [r|] eqn:ER; [|discriminate E].
  exists o, a, co, J, r. split; [exact H1|]. split; [exact H6|]. split; [exact H2|]. split; [exact H7|]. split.
  { intros I. assert (X : inb_list 4 (map fst (o_comps o)) = true) by (apply existsb_exists; exists 4; split; [exact I|apply Nat.eqb_refl]). congruence. }
  split; [apply clsb_spec; vmtrue|]. split; [apply clsb_spec; vmtrue|]. auto.
Qed.

(** C116: the scalar made in its default coordinates, the vector and a tensor of rank 2 *)
Definition ex_S := mkCalc (Some 5) [] RTensor.
Definition ex_Q := mkCalc (Some 6) [] RTensor.
Lemma labels_scalar t o c m : obj_of ex_scalar_w t = Some o -> o_indices o = [] -> o_rank o = 0 -> o_coords o = Some c -> o_metric o = Some m ->
  labelled ex_scalar_w (mkCalc (Some t) [] RTensor) t o.
Proof. intros. apply (operand_ok _ _ _ [] c m); auto; constructor. Qed.
Lemma ex_neg_hyps :
  (exists o a, labelled ex_scalar_w ex_S 5 o /\ stored_default o 0 a /\ o_metric o = Some 2 /\ cubic 2 a /\ rank a = o_rank o /\ ~ made_elsewhere o 0) /\
  typed ex_scalar_w /\ coordinate_system ex_scalar_w 0 2 /\
  typed ex_calc_w /\ coordinate_system ex_calc_w 0 2 /\
  (exists o a, labelled ex_calc_w ex_C 8 o /\ stored_default o 0 a /\ o_metric o = Some 2 /\ cubic 2 a /\ rank a = o_rank o /\ ~ made_elsewhere o 0).
Proof.
  destruct (scalar_view ex_scalar_w 5 0 2 2 false) as (o & a & H1 & H2 & H3 & H4 & H5 & H6 & H7 & H8 & H9); [vmtrue|].
  destruct (view_spec ex_calc_w 8 [1; -1]%Z 0 2) as (o1 & A1 & A2 & A3 & A4 & A5); [vmtrue|].
  assert (S : obj_view ex_calc_w 8 (fun o => default_storedb 2 o 0) false = true) by vmtrue. unfold obj_view in S. rewrite A1 in S.
  destruct (default_storedb_spec 2 o1 0 A4 S) as (b & B1 & B2 & B3).
  split; [|split; [apply typedb_spec; vmtrue|split; [apply systemb_spec; vmtrue|split; [apply ex_calc_typed|split; [apply systemb_spec; vmtrue|]]]]].
  - exists o, a. split; [apply (labels_scalar 5 o 0 2); auto|]. rewrite H3. auto.
  - exists o1, b. split; [apply (operand_ok _ _ _ [1; -1]%Z 0 2); try assumption; [distinct|reflexivity|cfg]|]. split; [exact B1|]. split; [exact A5|]. split; [exact B2|].
    split; [rewrite B3, A2, A3; reflexivity|]. intros [N _]. rewrite A3 in N. discriminate N.
Qed.
Lemma ex_sub_hyps : exists o1 o2 a1 a2,
  labelled ex_calc_w ex_C 8 o1 /\ labelled ex_calc_w ex_C 8 o2 /\ stored_default o1 0 a1 /\ stored_default o2 0 a2 /\
  same_indices (c_syms ex_C) (o_indices o1) (c_syms ex_C) (o_indices o2) /\ Permutation (c_syms ex_C) (c_syms ex_C) /\ ~ made_elsewhere o2 0.
Proof.
  destruct ex_neg_hyps as (_ & _ & _ & _ & _ & o & a & H1 & H2 & H3 & H4 & H5 & H6). exists o, o, a, a.
  split; [exact H1|]. split; [exact H1|]. split; [exact H2|]. split; [exact H2|]. split; [|split; [apply Permutation_refl|exact H6]].
  destruct H1 as (_ & _ & _ & _ & Ln & _). split; [auto|]. split; [auto|]. intros x z. tauto.
Qed.

Lemma scalar_call t c o a : clsb ex_scalar_w t CTensor = true -> clsb ex_scalar_w c CCoordinates = true ->
  obj_of ex_scalar_w t = Some o -> o_indices o = [] -> o_rank o = 0 -> o_coords o = Some c -> stored_default o c a -> rank a = 0 ->
  calc_call t [] ex_scalar_w = (Ok (mkCalc (Some t) [] RTensor), ex_scalar_w).
Proof.
  intros C1 C2 H1 H2 H3 Hc H4 H5. assert (G := scalar_get t c o a C1 C2 H1 H2 H3 H4). apply clsb_spec in C1.
  unfold calc_call, calc_init. unfold mbind at 1. rewrite C1.
  assert (E : get_components t None None ex_scalar_w = (Ok a, ex_scalar_w)).
  { rewrite <- G. unfold get_components. rewrite !(bind_ok _ _ o _ _ (getobj_ok _ _ _ H1)). rewrite Hc, H2.
    rewrite !(bind_ok _ _ c ex_scalar_w ex_scalar_w) by reflexivity. reflexivity. }
  rewrite (bind_ok _ _ tt ex_scalar_w ex_scalar_w); [reflexivity|]. rewrite (bind_ok _ _ o _ _ (getobj_ok _ _ _ H1)). rewrite (bind_ok _ _ _ _ _ E).
  rewrite H2, H5. reflexivity.
Qed.

(** C117 *)
Lemma neg_witness : exists (w : @world PolyOps) t u x w1 z w2 y w3, reachable w /\ In t (insts w) /\ cls_of w t = Some CTensor /\
  calc_call t [] w = (Ok x, w1) /\ calc_mul x (OScalar (kopp k1)) w1 = (Ok z, w2) /\ calc_neg x w1 = (Err ETypeError, w1) /\
  calc_call u [] w = (Ok y, w3) /\ calc_sub y (OCalc x) w1 = (Err ETypeError, w1) /\ calc_div x k1 w1 = (Err ETypeError, w1).
Proof.
  destruct (scalar_view ex_scalar_w 6 1 2 2 true) as (o & a & H1 & H2 & H3 & H4 & H5 & H6 & H7 & H8 & H9); [vmtrue|].
  destruct (scalar_view ex_scalar_w 5 0 2 2 false) as (o5 & a5 & B1 & B2 & B3 & B4 & B5 & B6 & B7 & B8 & B9); [vmtrue|].
  destruct (out_ok (calc_mul ex_Q (OScalar (@kopp PolyOps k1))) ex_scalar_w) as (z & w2 & E1 & _); [vmtrue|].
  assert (Lq := labels_scalar 6 o 1 2 H1 H2 H3 H4 H5). assert (Ls := labels_scalar 5 o5 0 2 B1 B2 B3 B4 B5).
  assert (C6 : clsb ex_scalar_w 6 CTensor = true) by vmtrue. assert (C5 : clsb ex_scalar_w 5 CTensor = true) by vmtrue.
  assert (C1 : clsb ex_scalar_w 1 CCoordinates = true) by vmtrue. assert (C0 : clsb ex_scalar_w 0 CCoordinates = true) by vmtrue.
  assert (K6 := scalar_call 6 1 o a C6 C1 H1 H2 H3 H4 H6 H8). assert (K5 := scalar_call 5 0 o5 a5 C5 C0 B1 B2 B3 B4 B6 B8).
  exists ex_scalar_w, 6, 5, ex_Q, ex_scalar_w, z, w2, ex_S, ex_scalar_w. split; [apply ex_scalar_reachable|]. split; [apply inb_list_spec; vmtrue|]. split; [apply clsb_spec; vmtrue|].
  split; [exact K6|]. split; [exact E1|]. split; [apply (neg_elsewhere _ _ 6 o 1 a Lq H6 H9)|]. split; [exact K5|].
  split; [|apply (div_elsewhere _ _ 6 o 1 a Lq H6 k1 H9)].
  apply (sub_elsewhere _ _ _ 5 o5 6 o 1 a Ls Lq H6); [congruence|exact H9].
Qed.
Lemma ex_elsewhere_hyps : exists o a, labelled ex_scalar_w ex_Q 6 o /\ stored_default o 1 a /\ made_elsewhere o 1.
Proof.
  destruct (scalar_view ex_scalar_w 6 1 2 2 true) as (o & a & H1 & H2 & H3 & H4 & H5 & H6 & H7 & H8 & H9); [vmtrue|].
  exists o, a. split; [apply (labels_scalar 6 o 1 2 H1 H2 H3 H4 H5)|auto].
Qed.

(** C118 *)
Lemma ex_function_hyps : exists o a w' o', obj_of ex_w 3 = Some o /\ get_components 3 (Some 1) (Some [-1]%Z) ex_w = (Ok a, w') /\ cubic 2 a /\
  obj_of w' 3 = Some o' /\ ~ made_elsewhere o' 1.
Proof.
  destruct (view_spec ex_w 3 [1]%Z 0 2) as (o & A1 & _); [vmtrue|].
  destruct (got_spec 2 1 (get_components 3 (Some 1) (Some [-1]%Z)) ex_w) as (a & w' & E & Ew & C & R); [vmtrue|].
  destruct (view_spec w' 3 [1]%Z 0 2) as (o' & B1 & B2 & B3 & B4 & B5); [rewrite Ew; vmtrue|]. clear Ew.
  exists o, a, w', o'. split; [exact A1|]. split; [exact E|]. split; [exact C|]. split; [exact B1|]. intros [N _]. rewrite B3 in N. discriminate N.
Qed.

(** C119 *)
Lemma function_witness : exists (w : @world PolyOps) t c a (f : @K PolyOps -> @K PolyOps), reachable w /\ In t (insts w) /\ cls_of w t = Some CTensor /\
  get_components t (Some c) (Some []) w = (Ok a, w) /\ get_components_with f t (Some c) (Some []) w = (Err ETypeError, w).
Proof.
  destruct (scalar_view ex_scalar_w 6 1 2 2 true) as (o & a & H1 & H2 & H3 & H4 & H5 & H6 & H7 & H8 & H9); [vmtrue|].
  assert (K6 : clsb ex_scalar_w 6 CTensor = true) by vmtrue. assert (K1 : clsb ex_scalar_w 1 CCoordinates = true) by vmtrue.
  assert (G := scalar_get 6 1 o a K6 K1 H1 H2 H3 H6).
  exists ex_scalar_w, 6, 1, a, (fun x => x). split; [apply ex_scalar_reachable|]. split; [apply inb_list_spec; vmtrue|]. split; [apply clsb_spec, K6|].
  split; [exact G|]. apply (function_elsewhere _ _ o 1 _ a _ o); auto.
Qed.
Lemma ex_function_elsewhere : exists o a, obj_of ex_scalar_w 6 = Some o /\ get_components 6 (Some 1) (Some []) ex_scalar_w = (Ok a, ex_scalar_w) /\ made_elsewhere o 1.
Proof.
  destruct (scalar_view ex_scalar_w 6 1 2 2 true) as (o & a & H1 & H2 & H3 & H4 & H5 & H6 & H7 & H8 & H9); [vmtrue|].
  exists o, a. split; [exact H1|]. split; [|exact H9]. apply (scalar_get 6 1 o a); auto; vmtrue.
Qed.

(** C120 *)
Lemma scalar_export_witness : exists (w : @world PolyOps) t s s' w', reachable w /\ In t (insts w) /\ cls_of w t = Some CTensor /\ plain (name_in w t) /\
  export_to_string t w = (Ok s, w) /\ ends (fun f => import_from_string f s) w (Err ETypeError, w) /\
  export_all_to_string w = (Ok s', w) /\ ends (fun f => import_all_from_string f s') w (Err ETypeError, w').
Proof.
  destruct (failsb_spec ex_scalar_w 6 ETypeError) as (s & E1 & E2); [apply reachable_integrity, ex_scalar_reachable|vmtrue|].
  destruct (all_failsb_spec ex_scalar_w ETypeError) as (s' & w' & E3 & E4); [vmtrue|].
  exists ex_scalar_w, 6, s, s', w'. split; [apply ex_scalar_reachable|]. split; [apply inb_list_spec; vmtrue|]. split; [apply clsb_spec; vmtrue|].
  split; [apply plainb_spec; vmtrue|]. auto.
Qed.
