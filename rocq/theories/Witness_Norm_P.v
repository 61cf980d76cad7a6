(** Concrete norms. *)
From Coq Require Import QArith Qcanon.
From Verif Require Import Alg Alg_P Arr Arr_P Spec UtilsM Arr2_P Act_P TensorM Inst Ex WorldM SpecWorld World_P Registry_P CalcM SpecCalc Calc_P CurvM SpecCurv SpecCov Curv2_P CurvRun_P ExWorld Witness_World_P Witness_History_P Witness_Calc_P Witness_Curv_P.
Local Open Scope nat_scope.

Definition rightb (w : @world PolyOps) (n : nat) (c t : oid) (g gi : nat -> nat -> pexp) (i : list Z) (h : list nat -> pexp) : bool :=
  obj_view w t (fun o => match dget Nat.eqb c (o_comps o) with
    | Some d => forallb (fun ja => cfgb (length i) (fst ja) && holdsb n (length i) (snd ja) (@converted PolyOps n g gi i (fst ja) h)) d
    | None => true
    end) false.
Lemma rightb_spec w n c t g gi i h : rightb w n c t g gi i h = true -> @stored_right PolyOps w n c t g gi i h.
Proof.
  intros H o d j b Ho Hd Hb. unfold rightb, obj_view in H. rewrite Ho, Hd in H. rewrite forallb_forall in H. specialize (H (j, b) (cget_In _ _ _ Hb)).
  cbn [fst snd] in H. apply andb_prop in H as [H1 H2]. apply cfgb_spec in H1 as [H1 H3]. split; [exact H1|]. split; [exact H3|]. apply holdsb_spec, H2.
Qed.

(** C108: the tensor C^a_b of rank 2 and the metric itself *)
Lemma value_view w n m c t i k h : k <> CCoordinates ->
  clsb w t k = true -> obj_view w t (fun o => opt_eqb (o_metric o) m && cfg_eqb (o_indices o) i && (o_rank o =? length i) && opt_eqb (o_coords o) c &&
    match dget Nat.eqb c (o_comps o) with Some d => match dget cfg_eqb i d with Some a => holdsb n (length i) a h | None => false end | None => false end) false = true ->
  @tensor_value PolyOps w n m c t i h.
Proof.
  intros Nk Hk H. unfold obj_view in H. destruct (obj_of w t) as [o|] eqn:Ho; [|discriminate]. do 4 two H.
  destruct (dget Nat.eqb c (o_comps o)) as [d|] eqn:Hd; [|discriminate]. destruct (dget cfg_eqb i d) as [a|] eqn:Ha; [|discriminate].
  apply opt_eqb_spec in H, C0. apply cfg_eqb_spec in C2. apply Nat.eqb_eq in C1.
  exists k, o, a. split; [apply clsb_spec, Hk|]. split; [exact Nk|]. split; [exact Ho|]. split; [exact H|]. split; [exact C2|]. split; [exact C1|].
  split; [split; [exact C0|]; exists d; split; [exact Hd|rewrite C2; exact Ha]|]. apply holdsb_spec, C.
Qed.
Lemma ex_norm_hyps :
  metric_session ex_calc_w 2 2 0 "g" ex_xs (mat2 ex_g) (mat2 ex_gi) /\
  (named ex_calc_w "C" 8 /\ cls_of ex_calc_w 8 = Some CTensor /\ tensor_value ex_calc_w 2 2 0 8 [1; -1]%Z (aget ex_mat) /\
   stored_right ex_calc_w 2 0 8 (mat2 ex_g) (mat2 ex_gi) [1; -1]%Z (aget ex_mat) /\
   forall j, In j (insts ex_calc_w) -> ~ named ex_calc_w "C Norm Squared" j) /\
  (named ex_calc_w "g" 2 /\ tensor_value ex_calc_w 2 2 0 2 [-1; -1]%Z (at2 (mat2 ex_g)) /\
   stored_right ex_calc_w 2 0 2 (mat2 ex_g) (mat2 ex_gi) [-1; -1]%Z (at2 (mat2 ex_g)) /\
   forall j, In j (insts ex_calc_w) -> ~ named ex_calc_w "g Norm Squared" j).
Proof.
  assert (F : names_free ex_calc_w ["C Norm Squared"; "g Norm Squared"]%string = true) by vmtrue. assert (N := names_free_spec _ _ F).
  split; [apply sessionb_spec; [apply ex_calc_reachable|vmtrue]|]. split; (split; [apply is_named_spec; vmtrue|]).
  - split; [apply clsb_spec; vmtrue|]. split; [apply (value_view _ _ _ _ _ _ CTensor); [discriminate|vmtrue|vmtrue]|]. split; [apply rightb_spec; vmtrue|].
    intros j Hj. apply N; [left; reflexivity|exact Hj].
  - split; [apply (value_view _ _ _ _ _ _ CMetric); [discriminate|vmtrue|vmtrue]|]. split; [apply rightb_spec; vmtrue|].
    intros j Hj. apply N; [right; left; reflexivity|exact Hj].
Qed.

(** C109: two vectors with the same name *)
Definition ex_vectors_w : @world PolyOps := run_all (ex_more "V" 1) ex_w.
Lemma ex_vectors_reachable : reachable ex_vectors_w.
Proof. apply run_all_reachable; [apply ex_w_reachable|vmtrue]. Qed.
Lemma shared_norm_witness :
  exists (w : @world PolyOps) t1 t2 q w1 w1' q' w2 r w3 r' w4,
  reachable w /\ t1 <> t2 /\ calc_norm_squared t1 w = (Ok q, w1) /\ calc_norm_squared t2 w1 = (Ok q, w1') /\
  calc_norm_squared t2 w = (Ok q', w2) /\
  get_components q None None w1' = (Ok r, w3) /\ get_components q' None None w2 = (Ok r', w4) /\ ~ keq (aget r []) (aget r' []).
Proof.
  destruct (differ3_spec (let! t := calc_norm_squared 3 in let! s := calc_norm_squared 4 in
     let! u := mlift (if t =? s then Ok tt else Err EValueError) in
     let! r := get_components t None None in @mret PolyOps (@K PolyOps) (aget r []))
    (let! t := calc_norm_squared 4 in let! r := get_components t None None in @mret PolyOps (@K PolyOps) (aget r []))
    ex_vectors_w v12) as (a & w4 & b & w5 & H & H' & N); [vmtrue|].
  apply bind_inv in H as (t & w1 & E1 & H). apply bind_inv in H as (s & w2 & E2 & H). apply bind_inv in H as (u & w2' & E3 & H).
  apply check_inv in E3 as [E3 ->]. apply Nat.eqb_eq in E3. subst s. apply bind_inv in H as (r & w3 & E4 & H). apply ret_inv in H as [-> _].
  apply bind_inv in H' as (t' & w1' & E1' & H'). apply bind_inv in H' as (r' & w3' & E4' & H'). apply ret_inv in H' as [-> _].
  exists ex_vectors_w, 3, 4, t, w1, w2, t', w1', r, w3, r', w3'. split; [apply ex_vectors_reachable|]. split; [discriminate|].
  split; [exact E1|]. split; [exact E2|]. split; [exact E1'|]. split; [exact E4|]. split; [exact E4'|]. exact N.
Qed.
