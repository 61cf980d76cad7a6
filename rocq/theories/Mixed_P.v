(** The product of tensors in different coordinates. *)
From Verif Require Import Alg Alg_P Arr Arr_P Spec UtilsM Utils_P Arr2_P TensorM WorldM SpecWorld World_P Registry_P History_P CalcM SpecCalc Keep_P Calc_P Calc2_P.
Local Open Scope nat_scope.

Section Mixed.
Context {A : AlgOps} {L : AlgLaws A}.
Lemma mixed_run w x y t1 o1 t2 o2 m c c' n i2 a1 w1 a2 w2 :
  typed w -> labelled w x t1 o1 -> labelled w y t2 o2 -> 1 <= n ->
  o_metric o1 = Some m -> o_metric o2 = Some m -> o_coords o1 = Some c -> o_coords o2 = Some c' -> coordinate_system w c n ->
  0 < o_rank o1 -> 0 < o_rank o2 ->
  opposite (c_syms x) (o_indices o1) (c_syms y) (o_indices o2) i2 ->
  get_components t1 (Some c) (Some (o_indices o1)) w = (Ok a1, w1) ->
  get_components t2 (Some c') (Some i2) w1 = (Ok a2, w2) ->
  cubic n a1 -> rank a1 = o_rank o1 -> cubic n a2 -> rank a2 = o_rank o2 ->
  let s1 := c_syms x in let s2 := c_syms y in let free := without s1 s2 ++ without s2 s1 in
  let i := indices_without s1 (o_indices o1) s2 ++ indices_without s2 (o_indices o2) s1 in
  exists a, matmul0 x y w = (Ok (new_calc w2 free), fresh_world w2 CTensor (tobj "TEMP" "T" i c m a)) /\
    cubic n a /\ rank a = length i /\
    forall f, (forall s, In s free -> f s < n) ->
      keq (aget a (map f free))
          (lsum (tuples n (length (common s1 s2))) (fun ks =>
             kmul (aget a1 (map (assign (common s1 s2) ks f) s1)) (aget a2 (map (assign (common s1 s2) ks f) s2)))).
Proof.
  intros Hty (Rx & Tx & Ox & Nx & Lx & Kx & Vx) (Ry & Ty & Oy & Ny & Ly & Ky & Vy) Hn M1 M2 C1 C2 Hc P1 P2 Hi G1 G2 Ha1 Hr1 Ha2 Hr2 s1 s2 free i.
  assert (Hw1 : kept w w1) by (eapply get_components_kept; [exact Hty|exact G1]).
  assert (Hw2 : kept w1 w2) by (eapply get_components_kept; [exact (kept_typed _ _ Hw1 Hty)|exact G2]).
  assert (Hw : kept w w2) by (eapply kept_trans; eauto).
  assert (Hm : cls_of w2 m = Some CMetric).
  { destruct Hw as (_ & _ & H & _). rewrite H. destruct (Hty t1 o1 Ox) as [H1 _]. apply H1, M1. }
  destruct (shared_spec s1 s2) as (p & q & Hp & Hq & Esh).
  destruct (contract_labelled n a1 a2 s1 s2 p q) as (r & Er & Hr & Hrr & Vr); try assumption; [unfold s1; congruence|unfold s2; congruence|].
  assert (Li : length i = rank r).
  { unfold i. rewrite app_length, !indices_without_length by (symmetry; assumption). rewrite Hrr, app_length. reflexivity. }
  exists r. split; [|split; [exact Hr|split; [symmetry; exact Li|exact Vr]]].
  unfold matmul0. rewrite Rx, Ry. unfold metric_attr. rewrite Tx, Ty.
  rewrite (bind_ok _ _ (Some m) w w) by (rewrite Ox, M1; reflexivity).
  rewrite (bind_ok _ _ (Some m) w w) by (rewrite Oy, M2; reflexivity).
  rewrite opt_oid_eqb_refl. cbn [negb].
  rewrite (bind_ok _ _ t1 w w) by (unfold tensor_of; rewrite Tx; reflexivity). rewrite (bind_ok _ _ o1 w w) by (apply getobj_ok, Ox).
  destruct (Nat.eqb_spec (o_rank o1) 0); [lia|].
  rewrite (bind_ok _ _ t2 w w) by (unfold tensor_of; rewrite Ty; reflexivity). rewrite (bind_ok _ _ o2 w w) by (apply getobj_ok, Oy).
  destruct (Nat.eqb_spec (o_rank o2) 0); [lia|].
  unfold tensor_product. cbv zeta. fold s1 s2. rewrite Esh. rewrite C1, C2.
  rewrite (bind_ok _ _ a1 w w1) by exact G1.
  rewrite (bind_ok _ _ i2 w1 w1).
  2:{ assert (Hf := opposite_fetch s1 (o_indices o1) s2 (o_indices o2) i2 w1 Nx (eq_sym Lx) (eq_sym Ly) Hi).
      destruct (combine (common s1 s2) (combine p q)) as [|e l] eqn:Ec; [|exact Hf].
      rewrite (opposite_disjoint s1 (o_indices o1) s2 (o_indices o2) i2); [reflexivity|symmetry; exact Ly| |exact Hi].
      assert (Lp := F2_length _ _ _ Hp). assert (Lq := F2_length _ _ _ Hq).
      destruct (common s1 s2) as [|e' l']; [reflexivity|]. destruct p; [discriminate|]. destruct q; discriminate. }
  rewrite (bind_ok _ _ a2 w1 w2) by exact G2.
  rewrite (bind_ok _ _ r w2 w2).
  2:{ apply mlift_ok. rewrite <- Er. f_equal.
      assert (Lp := F2_length _ _ _ Hp). assert (Lq := F2_length _ _ _ Hq).
      rewrite <- (map_map snd (fun e : nat * nat => (Z.of_nat (fst e), Z.of_nat (snd e)))). rewrite map_snd_combine by (rewrite combine_length; lia). reflexivity. }
  rewrite M1. rewrite (select_without (o_indices o1) s1 s2) by (intros; apply smem_free1; assumption).
  rewrite (select_without (o_indices o2) s2 s1) by (intros; apply smem_free2; assumption).
  fold i. unfold free. rewrite <- free_split.
  apply (make_calc w2 "TEMP" r m c i "T" n); try assumption.
  - apply (kept_system _ _ _ _ Hw Hc).
  - unfold i. apply Forall_app. split; apply indices_without_valid; assumption.
  - apply free_nodup; assumption.
Qed.
Theorem mixed_values w x y t1 o1 t2 o2 m c c' n i2 a1 w1 a2 w2 :
  typed w -> labelled w x t1 o1 -> labelled w y t2 o2 -> 1 <= n ->
  o_metric o1 = Some m -> o_metric o2 = Some m -> o_coords o1 = Some c -> o_coords o2 = Some c' -> coordinate_system w c n ->
  0 < o_rank o1 -> 0 < o_rank o2 ->
  opposite (c_syms x) (o_indices o1) (c_syms y) (o_indices o2) i2 ->
  get_components t1 (Some c) (Some (o_indices o1)) w = (Ok a1, w1) ->
  get_components t2 (Some c') (Some i2) w1 = (Ok a2, w2) ->
  cubic n a1 -> rank a1 = o_rank o1 -> cubic n a2 -> rank a2 = o_rank o2 ->
  let s1 := c_syms x in let s2 := c_syms y in let free := without s1 s2 ++ without s2 s1 in
  exists z w' a, matmul x y w = (Ok z, w') /\
    result_is w' z free m c (indices_without s1 (o_indices o1) s2 ++ indices_without s2 (o_indices o2) s1) a /\ cubic n a /\
    forall f, (forall s, In s free -> f s < n) ->
      keq (aget a (map f free))
          (lsum (tuples n (length (common s1 s2))) (fun ks =>
             kmul (aget a1 (map (assign (common s1 s2) ks f) s1)) (aget a2 (map (assign (common s1 s2) ks f) s2)))).
Proof.
  intros Hty Hx Hy Hn M1 M2 C1 C2 Hc P1 P2 Hi G1 G2 Ha1 Hr1 Ha2 Hr2 s1 s2 free.
  destruct (mixed_run w x y t1 o1 t2 o2 m c c' n i2 a1 w1 a2 w2) as (a & E & Ha & _ & V); try assumption.
  eexists _, _, a. split; [|split; [apply result_new|split; [exact Ha|exact V]]].
  unfold matmul, matmul_with. destruct Hx as (Rx & _), Hy as (Ry & _). rewrite Rx, Ry. exact E.
Qed.
End Mixed.
