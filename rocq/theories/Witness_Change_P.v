(** Concrete changes of coordinates. *)
From Coq Require Import QArith Qcanon Permutation.
From Verif Require Import Alg Alg_P Arr Arr_P Spec UtilsM Arr2_P Act_P TensorM RL_P Tensor_P Jacobian_P Inst Ex WorldM SpecWorld World_P Registry_P Geo_P History_P CalcM SpecCalc Calc_P CurvM SpecCurv SpecChange CurvCov2_P CurvCov3_P CurvCov4_P ExWorld Witness_Tensor_P Witness_World_P Witness_History_P Witness_Calc_P Witness_Curv_P.
Local Open Scope nat_scope.

Definition lawb (r : nat) (xs ys : list string) (R : list (string * @K PolyOps)) (f f' : list nat -> pexp) : bool :=
  forallb (fun idx => pisz (PSub (f' idx) (subs_seq R (@act PolyOps 3 (repeat (fun i k => jacobian_fun xs ys R k i) r) f idx)))) (all_idx (repeat 3 r)).
Lemma lawb_spec r c c' R f f' : lawb r (g_syms ex_geo3 c) (g_syms ex_geo3 c') R f f' = true -> covariant_law ex_geo3 r c c' R f f'.
Proof.
  intros H idx Hi. unfold lawb in H. rewrite forallb_forall in H. apply pisz_sub_eq, H, in_all_idx, inb_rng, Hi.
Qed.

Lemma ex_geo3_consistent : consistent ex_geo3.
Proof.
  split; [cbn; lia|]. split.
  - intros c [-> | ->]; (split; [reflexivity|split]).
    + split; apply (matb_spec 3 _ (@kdelta PolyOps)); vmtrue.
    + intros i j Hi Hj. apply (matb_spec 3 _ (fun i j => g_G ex_geo3 0 j i)); [vmtrue|exact Hi|exact Hj].
    + split; apply (matb_spec 3 _ (@kdelta PolyOps)); vmtrue.
    + intros i j Hi Hj. apply (matb_spec 3 _ (fun i j => g_G ex_geo3 1 j i)); [vmtrue|exact Hi|exact Hj].
  - intros c c' R [-> | ->] HR; cbn in HR.
    + destruct c' as [|[|c']]; cbn in HR; try discriminate. injection HR as <-.
      split; [right; reflexivity|]. split; [repeat constructor; cbn; intuition discriminate|].
      split; apply lawb_spec; vmtrue.
    + destruct c' as [|c']; cbn in HR; try discriminate. injection HR as <-.
      split; [left; reflexivity|]. split; [repeat constructor; cbn; intuition discriminate|].
      split; apply lawb_spec; vmtrue.
Qed.

Definition freeb (ys : list string) (f : nat -> nat -> pexp) : bool :=
  forallb (fun y => forallb (fun idx => pisz (@kdiff PolyOps y (at2 (A := PolyOps) f idx))) (all_idx [3; 3])) ys.
Lemma freeb_spec ys f : freeb ys f = true -> without_symbols (A := PolyOps) 3 ys 2 (at2 (A := PolyOps) f).
Proof.
  intros H y idx Hy Hi. unfold freeb in H. rewrite forallb_forall in H. specialize (H y Hy). rewrite forallb_forall in H.
  apply pisz_ok, H, in_all_idx. apply (proj2 (inb_rng 3 2 idx)), Hi.
Qed.
Lemma jac_ok xs ys (R : list (string * @K PolyOps)) : is_ok (calculate_jacobian xs ys R) = true -> exists j, calculate_jacobian xs ys R = Ok j.
Proof. destruct (calculate_jacobian xs ys R); [eauto|discriminate]. Qed.

Lemma ex_geo3_regular : regular ex_geo3.
Proof.
  intros c c' R [-> | ->] HR; cbn in HR.
  - destruct c' as [|[|c']]; cbn in HR; try discriminate. injection HR as <-. split; [|split].
    + split; [cbn; lia|]. split; [reflexivity|]. split; [reflexivity|]. split; [repeat constructor; cbn; intuition discriminate|].
      split; [cbn; eapply perm_trans; [apply perm_swap|]; eapply perm_trans; [apply perm_skip, perm_swap|]; apply perm_swap|].
      split; [intros x [<-|[<-|[<-|[]]]]; cbn; intuition discriminate|].
      intros r x [<-|[<-|[<-|[]]]] [<-|[<-|[<-|[]]]]; (split; [intros Q v|intros q Q v]); try reflexivity. all: revert Q v; polyeq.
    + apply freeb_spec. vmtrue.
    + apply jac_ok. vmtrue.
  - destruct c' as [|c']; cbn in HR; try discriminate. injection HR as <-. split; [|split].
    + split; [cbn; lia|]. split; [reflexivity|]. split; [reflexivity|]. split; [repeat constructor; cbn; intuition discriminate|].
      split; [cbn; apply perm_skip, perm_swap|].
      split; [intros x [<-|[<-|[<-|[]]]]; cbn; intuition discriminate|].
      intros r x [<-|[<-|[<-|[]]]] [<-|[<-|[<-|[]]]]; (split; [intros Q v|intros q Q v]); try reflexivity. all: revert Q v; polyeq.
    + apply freeb_spec. vmtrue.
    + apply jac_ok. vmtrue.
Qed.

Lemma ex_change_reachable : reachable ex_change_w.
Proof. apply start_reachable; vmtrue. Qed.
Lemma ex_change_session : metric_session ex_change_w 3 2 0 "g" (g_syms ex_geo3 0) (g_G ex_geo3 0) (g_Gi ex_geo3 0) /\
  known_results 3 (g_syms ex_geo3 0) (g_G ex_geo3 0) (g_Gi ex_geo3 0) ex_change_w 2 0 "g".
Proof. split; [apply sessionb_spec; [apply ex_change_reachable|vmtrue]|apply known_none; vmtrue]. Qed.

Lemma ex_change_represents : metric_represents ex_geo3 2 ex_change_w.
Proof.
  assert (SysIn : forall c, In c [0; 1] -> g_sys ex_geo3 c) by (intros c [<-|[<-|[]]]; cbn; auto).
  split; [apply typedb_spec; vmtrue|]. split; [apply clsb_spec; vmtrue|]. split.
  - assert (H : obj_view ex_change_w 2 (fun o => (o_rank o =? 2) && cfg_eqb (o_indices o) [-1; -1]%Z && opt_eqb (o_coords o) 0 &&
       storedb ex_geo3 [0; 1] 2 (fun c => mat_comps (g_G ex_geo3 c)) o) false = true) by vmtrue.
    unfold obj_view in H. destruct (obj_of ex_change_w 2) as [o|]; [|discriminate H]. exists o. split; [reflexivity|].
    apply andb_prop in H as [H H4]. apply andb_prop in H as [H H3]. apply andb_prop in H as [H1 H2].
    apply Nat.eqb_eq in H1. apply cfg_eqb_spec in H2. apply opt_eqb_spec in H3.
    split; [exact H1|]. split; [left; exact H2|]. split; [exists 0; split; [exact H3|left; reflexivity]|].
    apply (storedb_spec _ [0; 1]); [exact H4|exact SysIn].
  - assert (V : forall c, In c [0; 1] -> obj_view ex_change_w c (fun o => o_syms o) [] = g_syms ex_geo3 c /\
      (obj_view ex_change_w c (fun o => o_trans o) [] : list (nat * list (string * pexp))) = g_rules ex_geo3 c /\
      obj_view ex_change_w c (fun o => match o_jacs o with [] => true | _ => false end) false = true /\ clsb ex_change_w c CCoordinates = true).
    { intros c [<-|[<-|[]]]; (split; [vm_compute; reflexivity|]; split; [vm_compute; reflexivity|]; split; vmtrue). }
    intros c Hc. assert (Hc' : In c [0; 1]) by (destruct Hc as [-> | ->]; cbn; auto).
    destruct (V c Hc') as (V1 & V2 & V3 & V4). apply clsb_spec in V4. split; [exact V4|].
    unfold obj_view in V1, V2, V3. destruct (obj_of ex_change_w c) as [o|]; [|discriminate V3]. exists o. split; [reflexivity|].
    split; [exact V1|]. split; [exact V2|]. destruct (o_jacs o); [|discriminate V3]. intros c' j Hj. discriminate Hj.
Qed.

Lemma ex_change_temp k : g_sys ex_geo3 k -> ~ named ex_change_w "TEMP" k.
Proof.
  intros Hk. apply (names_free_spec ex_change_w ["TEMP"%string]); [vmtrue|left; reflexivity|].
  apply inb_list_spec. destruct Hk as [-> | ->]; vmtrue.
Qed.

(** C121, C122 *)
Lemma ex_change_hyps : exists J Ji C, coordinate_change 3 ex_xyz ex_uvw ex_rules3 /\
  calculate_jacobian ex_xyz ex_uvw ex_rules3 = Ok (J, Ji, C) /\
  metric_change 3 ex_uvw ex_rules3 J Ji (mfun ex_g3) (mfun ex_gi3) (mfun ex_G3) (mfun ex_Gi3).
Proof.
  destruct (ex_geo3_regular 0 1 ex_rules3 (or_introl eq_refl) eq_refl) as (HX & _ & [[J Ji] C] & EJ).
  exists J, Ji, C. split; [exact HX|]. split; [exact EJ|].
  exact (edge_metric ex_geo3 ex_geo3_consistent ex_geo3_regular 0 1 ex_rules3 J Ji C (or_introl eq_refl) eq_refl EJ).
Qed.

Definition ex_vec3 (idx : list nat) : pexp :=
  match idx with [0] => PMul (pv "x") (pv "y") | [1] => pv "z" | _ => PMul (pv "y") (pv "y") end.
Lemma ex_vector_hyps : exists J Ji C f', coordinate_change 3 ex_xyz ex_uvw ex_rules3 /\
  calculate_jacobian ex_xyz ex_uvw ex_rules3 = Ok (J, Ji, C) /\
  metric_change 3 ex_uvw ex_rules3 J Ji (mfun ex_g3) (mfun ex_gi3) (mfun ex_G3) (mfun ex_Gi3) /\
  valid_cfg [1]%Z /\ without_symbols (A := PolyOps) 3 ex_uvw 1 ex_vec3 /\ moved 3 ex_rules3 J Ji [1]%Z ex_vec3 f'.
Proof.
  destruct ex_change_hyps as (J & Ji & C & HX & EJ & HM).
  exists J, Ji, C, (act 3 (map (jac (mfun J) (hmat (subs_seq ex_rules3) (mfun Ji))) [1]%Z) (fun ks => subs_seq ex_rules3 (ex_vec3 ks))).
  split; [exact HX|]. split; [exact EJ|]. split; [exact HM|]. assert (V : valid_cfg [1]%Z) by (apply Forall_cons; [auto|apply Forall_nil]). split; [exact V|].
  split.
  - intros y idx Hy [Hl Hr]. destruct idx as [|i [|]]; try discriminate Hl. inversion Hr as [|? ? Hi _]; subst.
    destruct i as [|[|[|i]]]; [| | |lia]; destruct Hy as [<-|[<-|[<-|[]]]]; polyeq.
  - apply (moved_act 3 ex_xyz ex_uvw ex_rules3 J Ji C HX EJ [1]%Z); [exact V|]. intros idx Hi. reflexivity.
Qed.

Lemma ex_change_all :
  consistent ex_geo3 /\ regular ex_geo3 /\ g_sys ex_geo3 0 /\ 3 <= g_n ex_geo3 /\
  metric_session ex_change_w (g_n ex_geo3) 2 0 "g" (g_syms ex_geo3 0) (g_G ex_geo3 0) (g_Gi ex_geo3 0) /\
  known_results (g_n ex_geo3) (g_syms ex_geo3 0) (g_G ex_geo3 0) (g_Gi ex_geo3 0) ex_change_w 2 0 "g" /\
  metric_represents ex_geo3 2 ex_change_w /\ (forall k, g_sys ex_geo3 k -> ~ named ex_change_w "TEMP" k) /\
  (forall j, In j (insts ex_change_w) -> ~ named ex_change_w "g Ricci Tensor" j) /\
  exists t w' a w'', calc_ricci 2 ex_change_w = (Ok t, w') /\ ~ In t (insts ex_change_w) /\
    get_components t (Some 1) (Some [1; -1]%Z) w' = (Ok a, w'') /\ ~ keq (aget a [0; 0]) k0.
Proof.
  split; [exact ex_geo3_consistent|]. split; [exact ex_geo3_regular|]. split; [left; reflexivity|]. split; [cbn; lia|].
  split; [apply ex_change_session|]. split; [apply ex_change_session|]. split; [exact ex_change_represents|]. split; [exact ex_change_temp|].
  split. { intros j Hj. apply (names_free_spec ex_change_w ["g Ricci Tensor"%string]); [vmtrue|left; reflexivity|exact Hj]. }
  destruct (differ2_spec (let! t := @calc_ricci PolyOps 2 in
     let! u := mlift (if negb (existsb (Nat.eqb t) (insts ex_change_w)) then Ok tt else Err EValueError) in
     let! a := @get_components PolyOps t (Some 1) (Some [1; -1]%Z) in mret (@aget PolyOps a [0; 0] : pexp, @k0 PolyOps : pexp)) ex_change_w v12) as (x & y & w' & H & N); [vmtrue|].
  apply bind_inv in H as (t & w1 & E1 & H). apply bind_inv in H as (u & w2 & E2 & H). apply check_inv in E2 as [E2 ->].
  apply bind_inv in H as (a & w3 & E3 & H). apply ret_inv in H as [H _]. injection H as -> ->.
  exists t, w1, a, w3. split; [exact E1|]. split; [|split; [exact E3|exact N]].
  intros Ht. apply negb_true_iff in E2. apply not_true_iff_false in E2. apply E2, existsb_exists. exists t. split; [exact Ht|apply Nat.eqb_refl].
Qed.
