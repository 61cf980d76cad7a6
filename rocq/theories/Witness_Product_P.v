(** Concrete products of scalars and tensors. *)
From Coq Require Import QArith.
From Verif Require Import Base Alg Alg_P Arr Arr_P Spec UtilsM Arr2_P Act_P TensorM Inst Ex WorldM SpecWorld World_P Registry_P CalcM SpecCalc Calc_P Calc2_P Calc3_P
  ExWorld Witness_World_P Witness_History_P Witness_Calc_P SpecScalar Scalar_P Witness_Scalar_P ScalarMul_P.
Import List.
Local Open Scope nat_scope.

(** ex_scalar_w, where there are rules from u, v (object 1) to p, q (object 4) and none back, with
    the scalar u v made in u, v (7), the scalar p + q made in p, q (8), a vector made in p, q (9),
    and a second metric (10) made in p, q with a vector (11). *)
Definition ex_uv : @arr PolyOps := @mkArr PolyOps [] [PMul (pv "u") (pv "v")].
Definition ex_pq : @arr PolyOps := @mkArr PolyOps [] [PAdd (pv "p") (pv "q")].
Definition ex_pvec : @arr PolyOps := @mkArr PolyOps [2] [pv "p"; PMul (pv "q") (pv "q")].
Definition ex_product_w : @world PolyOps := run_all
  [OpTensor (ex_str "U") (VArr ex_uv) (VObj 2) (VObj 1) (VTuple []) (ex_str "U");
   OpTensor (ex_str "P") (VArr ex_pq) (VObj 2) (VObj 4) (VTuple []) (ex_str "P");
   OpTensor (ex_str "V") (VArr ex_pvec) (VObj 2) (VObj 4) (VTuple [1]%Z) (ex_str "V");
   OpMetric (ex_str "h") (VArr ex_flat) (VObj 4) (VTuple [-1; -1]%Z) (ex_str "h");
   OpTensor (ex_str "W") (VArr ex_pvec) (VObj 10) (VObj 4) (VTuple [1]%Z) (ex_str "W")] ex_scalar_w.
Lemma ex_product_reachable : reachable ex_product_w.
Proof. apply run_all_reachable; [apply ex_scalar_reachable|vmtrue]. Qed.

Definition scalar_objectb (o : @obj PolyOps) (c : oid) : bool :=
  cfg_eqb (o_indices o) [] && (o_rank o =? 0) && forallb (fun cd => dmem cfg_eqb [] (snd cd)) (o_comps o) && opt_eqb (o_coords o) c && dmem Nat.eqb c (o_comps o).
Lemma dget_in {V} (c : oid) (d : V) l : dget Nat.eqb c l = Some d -> In (c, d) l.
Proof. induction l as [|[k v] l IH]; cbn; [discriminate|]. destruct (Nat.eqb_spec c k) as [->|]; [intros E; injection E as ->; auto|auto]. Qed.
Lemma scalar_objectb_spec o c : scalar_objectb o c = true -> scalar_object o.
Proof.
  intros H. apply andb_prop in H as [H H5]. apply andb_prop in H as [H H4]. apply andb_prop in H as [H H3]. apply andb_prop in H as [H1 H2].
  apply cfg_eqb_spec in H1. apply Nat.eqb_eq in H2. apply opt_eqb_spec in H4. rewrite forallb_forall in H3.
  split; [exact H1|]. split; [exact H2|]. split; [|intros c' E; assert (c' = c) by congruence; subst c'; exact H5].
  intros c' d E. exact (H3 (c', d) (dget_in c' d _ E)).
Qed.
Lemma scalar_operand (w : @world PolyOps) t c m : obj_view w t (fun o => scalar_objectb o c && opt_eqb (o_metric o) m) false = true ->
  exists o, obj_of w t = Some o /\ scalar_object o /\ labelled w (mkCalc (Some t) [] RTensor) t o /\ o_coords o = Some c /\ o_metric o = Some m.
Proof.
  unfold obj_view. destruct (obj_of w t) as [o|] eqn:E; [|discriminate]. intros H. apply andb_prop in H as [H Hm]. apply opt_eqb_spec in Hm.
  assert (S := scalar_objectb_spec o c H). apply andb_prop in H as [H _]. apply andb_prop in H as [_ H]. apply opt_eqb_spec in H. destruct S as (S1 & S2 & S3) eqn:ES.
  exists o. split; [reflexivity|]. split; [exact S|]. split; [|auto]. apply (operand_ok _ _ _ [] c m); auto; constructor.
Qed.
Lemma vector_operand (w : @world PolyOps) t c m : obj_view w t (fun o => cfg_eqb (o_indices o) [1]%Z && (o_rank o =? 1) && opt_eqb (o_coords o) c && opt_eqb (o_metric o) m && default_storedb 2 o c) false = true ->
  exists o a, labelled w (mkCalc (Some t) ["a"%string] RTensor) t o /\ 0 < o_rank o /\ o_metric o = Some m /\ stored_default o c a /\ cubic 2 a /\ rank a = o_rank o.
Proof.
  unfold obj_view. destruct (obj_of w t) as [o|] eqn:E; [|discriminate]. intros H. apply andb_prop in H as [H H5]. apply andb_prop in H as [H H4].
  apply andb_prop in H as [H H3]. apply andb_prop in H as [H1 H2]. apply cfg_eqb_spec in H1. apply Nat.eqb_eq in H2. apply opt_eqb_spec in H3, H4.
  destruct (default_storedb_spec 2 o c H3 H5) as (a & B1 & B2 & B3). exists o, a.
  split; [apply (operand_ok _ _ _ [1]%Z c m); auto; [repeat constructor; intros []|cfg]|]. split; [lia|]. split; [exact H4|]. split; [exact B1|]. split; [exact B2|].
  rewrite B3, H1, H2. reflexivity.
Qed.
Definition scalar_outb (r : res (@arr PolyOps)) : bool := match r with Ok a => match shape a, data a with [], [_] => true | _, _ => false end | Err _ => false end.
Lemma scalar_out (m : @M PolyOps (@arr PolyOps)) w : scalar_outb (fst (m w)) = true -> exists k w1, m w = (Ok (@mkArr PolyOps [] [k]), w1).
Proof.
  destruct (m w) as [[[sh l]|] w1]; cbn; [|discriminate]. destruct sh; [|discriminate]. destruct l as [|k [|? ?]]; try discriminate. intros _. exists k, w1. reflexivity.
Qed.

Definition ex_U := mkCalc (Some 7) [] RTensor.
Definition ex_P := mkCalc (Some 8) [] RTensor.
Definition ex_V := mkCalc (Some 9) ["a"%string] RTensor.
Definition ex_W := mkCalc (Some 11) ["a"%string] RTensor.

Lemma product_witness : exists (w : @world PolyOps) x y t1 t2 o1 o2 c1 k w1 w2 w3, reachable w /\
  labelled w x t1 o1 /\ labelled w y t2 o2 /\ cls_of w t1 = Some CTensor /\ cls_of w t2 = Some CTensor /\ scalar_object o1 /\ scalar_object o2 /\
  o_metric o1 = o_metric o2 /\ o_coords o1 = Some c1 /\ get_components t2 (Some c1) None w = (Ok (@mkArr PolyOps [] [k]), w1) /\
  calc_mul x (OCalc y) w = (Err ETransformation, w2) /\ calc_mul y (OCalc x) w = (Err ETransformation, w3).
Proof.
  destruct (scalar_operand ex_product_w 8 4 2) as (o1 & A1 & A2 & A3 & A4 & A5); [vmtrue|].
  destruct (scalar_operand ex_product_w 7 1 2) as (o2 & B1 & B2 & B3 & B4 & B5); [vmtrue|].
  destruct (scalar_out (get_components 7 (Some 4) None) ex_product_w) as (k & w1 & G); [vmtrue|].
  destruct (out_err (calc_mul ex_P (OCalc ex_U)) ETransformation ex_product_w) as (w2 & E2 & _); [vmtrue|].
  destruct (out_err (calc_mul ex_U (OCalc ex_P)) ETransformation ex_product_w) as (w3 & E3 & _); [vmtrue|].
  exists ex_product_w, ex_P, ex_U, 8, 7, o1, o2, 4, k, w1, w2, w3. split; [apply ex_product_reachable|]. split; [exact A3|]. split; [exact B3|].
  split; [apply clsb_spec; vmtrue|]. split; [apply clsb_spec; vmtrue|]. split; [exact A2|]. split; [exact B2|]. split; [congruence|]. auto.
Qed.
Lemma ex_product_hyps : exists o1 o2 o3 a b k w1,
  typed ex_product_w /\ labelled ex_product_w ex_U 7 o1 /\ labelled ex_product_w ex_V 9 o2 /\ labelled ex_product_w ex_W 11 o3 /\
  cls_of ex_product_w 7 = Some CTensor /\ cls_of ex_product_w 9 <> Some CCoordinates /\ cls_of ex_product_w 11 <> Some CCoordinates /\
  scalar_object o1 /\ 0 < o_rank o2 /\ 0 < o_rank o3 /\ o_metric o2 = Some 2 /\ o_metric o3 = Some 10 /\ o_metric o1 <> o_metric o3 /\
  coordinate_system ex_product_w 4 2 /\ stored_default o2 4 a /\ stored_default o3 4 b /\ cubic 2 a /\ cubic 2 b /\ rank a = o_rank o2 /\ rank b = o_rank o3 /\
  get_components 7 (Some 4) None ex_product_w = (Ok (@mkArr PolyOps [] [k]), w1).
Proof.
  destruct (scalar_operand ex_product_w 7 1 2) as (o1 & B1 & B2 & B3 & B4 & B5); [vmtrue|].
  destruct (vector_operand ex_product_w 9 4 2) as (o2 & a & C1 & C2 & C3 & C4 & C5 & C6); [vmtrue|].
  destruct (vector_operand ex_product_w 11 4 10) as (o3 & b & D1 & D2 & D3 & D4 & D5 & D6); [vmtrue|].
  destruct (scalar_out (get_components 7 (Some 4) None) ex_product_w) as (k & w1 & G); [vmtrue|].
  assert (K9 : cls_of ex_product_w 9 = Some CTensor) by (apply clsb_spec; vmtrue). assert (K11 : cls_of ex_product_w 11 = Some CTensor) by (apply clsb_spec; vmtrue).
  exists o1, o2, o3, a, b, k, w1. split; [apply typedb_spec; vmtrue|]. do 3 (split; [assumption|]). split; [apply clsb_spec; vmtrue|].
  split; [rewrite K9; discriminate|]. split; [rewrite K11; discriminate|]. do 5 (split; [assumption|]). split; [rewrite B5, D3; discriminate|].
  split; [apply systemb_spec; vmtrue|]. auto 10.
Qed.
