(** Concrete sessions for curvature that vanishes and for conserved quantities. *)
From Coq Require Import QArith Qcanon Permutation.
From Verif Require Import Alg Alg_P Arr Arr_P Spec UtilsM Arr2_P Act_P TensorM RL_P Tensor_P Jacobian_P Inst Ex WorldM SpecWorld World_P Registry_P Geo_P History_P CalcM SpecCalc Calc_P CurvM SpecCurv SpecChange SpecDim GeodM SpecGeod CurvCov2_P CurvCov3_P CurvCov4_P ExWorld Witness_Tensor_P Witness_World_P Witness_History_P Witness_Calc_P Witness_Curv_P Witness_Geod_P.
Local Open Scope nat_scope.

(** A constant metric, given in the coordinates x, y, z, that is not constant in the
    coordinates u, v, w. *)
Definition ex_fg : @arr PolyOps := @mkArr PolyOps [3; 3] [pz 1; pz 2; pz 0; pz 2; pz 5; pz 0; pz 0; pz 0; pz 1].
Definition ex_fgi : @arr PolyOps := @mkArr PolyOps [3; 3] [pz 5; pz (-2); pz 0; pz (-2); pz 1; pz 0; pz 0; pz 0; pz 1].
Definition ex_fG : @arr PolyOps :=
  tab [3; 3] (fun idx => subs_seq ex_rules3
    (act 3 [fun i k => mfun ex_J3 k i; fun i k => mfun ex_J3 k i] (aget ex_fg) idx)).
Definition ex_fGi : @arr PolyOps :=
  tab [3; 3] (fun idx => subs_seq ex_rules3 (act 3 [mfun ex_Ji3; mfun ex_Ji3] (aget ex_fgi) idx)).
Definition ex_flat_geo : @geometry PolyOps :=
  mkGeo 3 2 (fun c => c = 0 \/ c = 1)
    (fun c => if c =? 0 then ex_xyz else ex_uvw)
    (fun c => if c =? 0 then [(1, ex_rules3)] else [(0, ex_back3)])
    (fun c => mat_comps (mfun (if c =? 0 then ex_fg else ex_fG)))
    (fun c => mfun (if c =? 0 then ex_fg else ex_fG))
    (fun c => mfun (if c =? 0 then ex_fgi else ex_fGi)).
Definition ex_flat_w : @world PolyOps := run_all
  [OpCoordinates (ex_str "XYZ") (VSyms [3] ex_xyz) (VTuple [1]%Z) (ex_str "x") [];
   OpCoordinates (ex_str "UVW") (VSyms [3] ex_uvw) (VTuple [1]%Z) (ex_str "u") [];
   OpAdd 0 (VObj 1) (Some (map REq ex_rules3));
   OpAdd 1 (VObj 0) (Some (map REq ex_back3));
   OpMetric (ex_str "g") (VArr ex_fg) (VObj 0) (VTuple [-1; -1]%Z) (ex_str "g")] empty_world.

Definition flawb (r : nat) (xs ys : list string) (R : list (string * @K PolyOps)) (f f' : list nat -> pexp) : bool :=
  forallb (fun idx => pisz (PSub (f' idx) (subs_seq R (@act PolyOps 3 (repeat (fun i k => jacobian_fun xs ys R k i) r) f idx)))) (all_idx (repeat 3 r)).
Lemma flawb_spec r c c' R f f' : flawb r (g_syms ex_flat_geo c) (g_syms ex_flat_geo c') R f f' = true -> covariant_law ex_flat_geo r c c' R f f'.
Proof.
  intros H idx Hi. unfold flawb in H. rewrite forallb_forall in H. apply pisz_sub_eq, H, in_all_idx, inb_rng, Hi.
Qed.

Lemma ex_flat_geo_consistent : consistent ex_flat_geo.
Proof.
  split; [cbn; lia|]. split.
  - intros c [-> | ->]; (split; [reflexivity|split]).
    + split; apply (matb_spec 3 _ (@kdelta PolyOps)); vmtrue.
    + intros i j Hi Hj. apply (matb_spec 3 _ (fun i j => g_G ex_flat_geo 0 j i)); [vmtrue|exact Hi|exact Hj].
    + split; apply (matb_spec 3 _ (@kdelta PolyOps)); vmtrue.
    + intros i j Hi Hj. apply (matb_spec 3 _ (fun i j => g_G ex_flat_geo 1 j i)); [vmtrue|exact Hi|exact Hj].
  - intros c c' R [-> | ->] HR; cbn in HR.
    + destruct c' as [|[|c']]; cbn in HR; try discriminate. injection HR as <-.
      split; [right; reflexivity|]. split; [repeat constructor; cbn; intuition discriminate|].
      split; apply flawb_spec; vmtrue.
    + destruct c' as [|c']; cbn in HR; try discriminate. injection HR as <-.
      split; [left; reflexivity|]. split; [repeat constructor; cbn; intuition discriminate|].
      split; apply flawb_spec; vmtrue.
Qed.

Definition ffreeb (ys : list string) (f : nat -> nat -> pexp) : bool :=
  forallb (fun y => forallb (fun idx => pisz (@kdiff PolyOps y (at2 (A := PolyOps) f idx))) (all_idx [3; 3])) ys.
Lemma ffreeb_spec ys f : ffreeb ys f = true -> without_symbols (A := PolyOps) 3 ys 2 (at2 (A := PolyOps) f).
Proof.
  intros H y idx Hy Hi. unfold ffreeb in H. rewrite forallb_forall in H. specialize (H y Hy). rewrite forallb_forall in H.
  apply pisz_ok, H, in_all_idx. apply (proj2 (inb_rng 3 2 idx)), Hi.
Qed.
Lemma fjac_ok xs ys (R : list (string * @K PolyOps)) : is_ok (calculate_jacobian xs ys R) = true -> exists j, calculate_jacobian xs ys R = Ok j.
Proof. destruct (calculate_jacobian xs ys R); [eauto|discriminate]. Qed.

Lemma ex_flat_geo_regular : regular ex_flat_geo.
Proof.
  intros c c' R [-> | ->] HR; cbn in HR.
  - destruct c' as [|[|c']]; cbn in HR; try discriminate. injection HR as <-. split; [|split].
    + split; [cbn; lia|]. split; [reflexivity|]. split; [reflexivity|]. split; [repeat constructor; cbn; intuition discriminate|].
      split; [cbn; eapply perm_trans; [apply perm_swap|]; eapply perm_trans; [apply perm_skip, perm_swap|]; apply perm_swap|].
      split; [intros x [<-|[<-|[<-|[]]]]; cbn; intuition discriminate|].
      intros r x [<-|[<-|[<-|[]]]] [<-|[<-|[<-|[]]]]; (split; [intros Q v|intros q Q v]); try reflexivity. all: revert Q v; polyeq.
    + apply ffreeb_spec. vmtrue.
    + apply fjac_ok. vmtrue.
  - destruct c' as [|c']; cbn in HR; try discriminate. injection HR as <-. split; [|split].
    + split; [cbn; lia|]. split; [reflexivity|]. split; [reflexivity|]. split; [repeat constructor; cbn; intuition discriminate|].
      split; [cbn; apply perm_skip, perm_swap|].
      split; [intros x [<-|[<-|[<-|[]]]]; cbn; intuition discriminate|].
      intros r x [<-|[<-|[<-|[]]]] [<-|[<-|[<-|[]]]]; (split; [intros Q v|intros q Q v]); try reflexivity. all: revert Q v; polyeq.
    + apply ffreeb_spec. vmtrue.
    + apply fjac_ok. vmtrue.
Qed.

Lemma ex_flat_reachable : reachable ex_flat_w.
Proof. apply start_reachable; vmtrue. Qed.
Lemma ex_flat_session : metric_session ex_flat_w 3 2 0 "g" (g_syms ex_flat_geo 0) (g_G ex_flat_geo 0) (g_Gi ex_flat_geo 0) /\
  known_results 3 (g_syms ex_flat_geo 0) (g_G ex_flat_geo 0) (g_Gi ex_flat_geo 0) ex_flat_w 2 0 "g".
Proof. split; [apply sessionb_spec; [apply ex_flat_reachable|vmtrue]|apply known_none; vmtrue]. Qed.

Lemma ex_flat_represents : metric_represents ex_flat_geo 2 ex_flat_w.
Proof.
  assert (SysIn : forall c, In c [0; 1] -> g_sys ex_flat_geo c) by (intros c [<-|[<-|[]]]; cbn; auto).
  split; [apply typedb_spec; vmtrue|]. split; [apply clsb_spec; vmtrue|]. split.
  - assert (H : obj_view ex_flat_w 2 (fun o => (o_rank o =? 2) && cfg_eqb (o_indices o) [-1; -1]%Z && opt_eqb (o_coords o) 0 &&
       storedb ex_flat_geo [0; 1] 2 (fun c => mat_comps (g_G ex_flat_geo c)) o) false = true) by vmtrue.
    unfold obj_view in H. destruct (obj_of ex_flat_w 2) as [o|]; [|discriminate H]. exists o. split; [reflexivity|].
    apply andb_prop in H as [H H4]. apply andb_prop in H as [H H3]. apply andb_prop in H as [H1 H2].
    apply Nat.eqb_eq in H1. apply cfg_eqb_spec in H2. apply opt_eqb_spec in H3.
    split; [exact H1|]. split; [left; exact H2|]. split; [exists 0; split; [exact H3|left; reflexivity]|].
    apply (storedb_spec _ [0; 1]); [exact H4|exact SysIn].
  - assert (V : forall c, In c [0; 1] -> obj_view ex_flat_w c (fun o => o_syms o) [] = g_syms ex_flat_geo c /\
      (obj_view ex_flat_w c (fun o => o_trans o) [] : list (nat * list (string * pexp))) = g_rules ex_flat_geo c /\
      obj_view ex_flat_w c (fun o => match o_jacs o with [] => true | _ => false end) false = true /\ clsb ex_flat_w c CCoordinates = true).
    { intros c [<-|[<-|[]]]; (split; [vm_compute; reflexivity|]; split; [vm_compute; reflexivity|]; split; vmtrue). }
    intros c Hc. assert (Hc' : In c [0; 1]) by (destruct Hc as [-> | ->]; cbn; auto).
    destruct (V c Hc') as (V1 & V2 & V3 & V4). apply clsb_spec in V4. split; [exact V4|].
    unfold obj_view in V1, V2, V3. destruct (obj_of ex_flat_w c) as [o|]; [|discriminate V3]. exists o. split; [reflexivity|].
    split; [exact V1|]. split; [exact V2|]. destruct (o_jacs o); [|discriminate V3]. intros c' j Hj. discriminate Hj.
Qed.

Lemma ex_flat_temp k : g_sys ex_flat_geo k -> ~ named ex_flat_w "TEMP" k.
Proof.
  intros Hk. apply (names_free_spec ex_flat_w ["TEMP"%string]); [vmtrue|left; reflexivity|].
  apply inb_list_spec. destruct Hk as [-> | ->]; vmtrue.
Qed.


Lemma ex_flat_constant : constant_metric ex_flat_geo 0.
Proof.
  intros k i j Hk Hi Hj. cbn in Hk, Hi, Hj.
  destruct k as [|[|[|k]]]; [| | |lia]; destruct i as [|[|[|i]]]; try lia; destruct j as [|[|[|j]]]; try lia; polyeq.
Qed.
Lemma ex_flat_linked : linked ex_flat_geo 0 1.
Proof. apply (linked_step _ 0 0 1 ex_rules3); [apply linked_start|reflexivity]. Qed.
Lemma ex_flat_all :
  consistent ex_flat_geo /\ regular ex_flat_geo /\ g_sys ex_flat_geo 0 /\ constant_metric ex_flat_geo 0 /\
  linked ex_flat_geo 0 1 /\ ~ constant_metric ex_flat_geo 1 /\ 3 <= g_n ex_flat_geo /\
  metric_session ex_flat_w (g_n ex_flat_geo) 2 0 "g" (g_syms ex_flat_geo 0) (g_G ex_flat_geo 0) (g_Gi ex_flat_geo 0) /\
  known_results (g_n ex_flat_geo) (g_syms ex_flat_geo 0) (g_G ex_flat_geo 0) (g_Gi ex_flat_geo 0) ex_flat_w 2 0 "g" /\
  metric_represents ex_flat_geo 2 ex_flat_w /\ (forall k, g_sys ex_flat_geo k -> ~ named ex_flat_w "TEMP" k) /\
  (forall j, In j (insts ex_flat_w) -> ~ named ex_flat_w "g Ricci Tensor" j) /\
  exists t w' a w'', calc_ricci 2 ex_flat_w = (Ok t, w') /\ ~ In t (insts ex_flat_w) /\
    get_components t (Some 1) (Some [1; -1]%Z) w' = (Ok a, w'').
Proof.
  split; [exact ex_flat_geo_consistent|]. split; [exact ex_flat_geo_regular|]. split; [left; reflexivity|].
  split; [exact ex_flat_constant|]. split; [exact ex_flat_linked|]. split.
  { intros H. specialize (H 0 0 0 ltac:(cbn; lia) ltac:(cbn; lia) ltac:(cbn; lia)).
    apply (peq_Qc _ _ (fun _ => 1%Qc)) in H. revert H. vm_compute. intros H. discriminate H. }
  split; [cbn; lia|].
  split; [apply ex_flat_session|]. split; [apply ex_flat_session|]. split; [exact ex_flat_represents|]. split; [exact ex_flat_temp|].
  split. { intros j Hj. apply (names_free_spec ex_flat_w ["g Ricci Tensor"%string]); [vmtrue|left; reflexivity|exact Hj]. }
  destruct (out_ok (let! t := @calc_ricci PolyOps 2 in
     let! u := mlift (if negb (existsb (Nat.eqb t) (insts ex_flat_w)) then Ok tt else Err EValueError) in
     let! a := @get_components PolyOps t (Some 1) (Some [1; -1]%Z) in mret (t, a)) ex_flat_w) as (x & w' & H & _); [vmtrue|].
  apply bind_inv in H as (t & w1 & E1 & H). apply bind_inv in H as (u & w2 & E2 & H). apply check_inv in E2 as [E2 ->].
  apply bind_inv in H as (a & w3 & E3 & H).
  exists t, w1, a, w3. split; [exact E1|]. split; [|exact E3].
  intros Ht. apply negb_true_iff in E2. apply not_true_iff_false in E2. apply E2, existsb_exists. exists t. split; [exact Ht|apply Nat.eqb_refl].
Qed.

(** C162 *)
Lemma ex_three_free : metric_session ex_three_w 3 1 0 "g" ex_xyz (mat2 ex_g3) (mat2 ex_gi3) /\
  known_results 3 ex_xyz (mat2 ex_g3) (mat2 ex_gi3) ex_three_w 1 0 "g" /\
  (forall j, In j (insts ex_three_w) -> ~ named ex_three_w "g Ricci Tensor" j) /\
  ~ keq (Ric 3 ex_xyz (mat2 ex_g3) (mat2 ex_gi3) 0 0) k0.
Proof.
  split; [apply ex_three_session|]. split; [apply ex_three_session|]. split.
  - intros j Hj. apply (names_free_spec ex_three_w ["g Ricci Tensor"%string]); [vmtrue|left; reflexivity|exact Hj].
  - intros H. apply (peq_Qc _ _ (fun _ => 1%Qc)) in H. revert H. vm_compute. intros H. discriminate H.
Qed.

(** C166: the metric of the example does not contain y *)
Lemma ex_cyclic : metric_session ex_w 2 2 0 "g" ex_xs (mat2 ex_g) (mat2 ex_gi) /\
  known_results 2 ex_xs (mat2 ex_g) (mat2 ex_gi) ex_w 2 0 "g" /\ known_curves 2 ex_xs (mat2 ex_g) (mat2 ex_gi) ex_w 2 0 "g" /\
  static_metric 2 ex_xs (mat2 ex_g) /\
  (forall i j, i < 2 -> j < 2 -> keq (kdiff (nth 1 ex_xs ""%string) (mat2 ex_g i j)) k0) /\
  ~ keq (kdiff (nth 0 ex_xs ""%string) (mat2 ex_g 0 1)) k0.
Proof.
  destruct ex_curve_session as (H1 & H2 & H3 & H4). split; [exact H1|]. split; [exact H2|]. split; [exact H3|]. split; [exact H4|]. split.
  - intros i j Hi Hj. destruct i as [|[|i]]; try lia; destruct j as [|[|j]]; try lia; polyeq.
  - intros H. apply (peq_Qc _ _ (fun _ => 1%Qc)) in H. revert H. vm_compute. intros H. discriminate H.
Qed.

(** C167 *)
Lemma nested_covariant_witness :
  exists (w : @world PolyOps) t x w0 d w1 z w2 e w3 w4,
  reachable w /\ calc_call t ["c"]%string w = (Ok x, w0) /\ CovariantD ["b"]%string w0 = (Ok d, w1) /\
  matmul d x w1 = (Ok z, w2) /\ CovariantD ["a"]%string w2 = (Ok e, w3) /\ matmul e z w3 = (Err EAttributeError, w4).
Proof.
  pose (p := let! x := calc_call 3 ["c"]%string in let! d := CovariantD ["b"]%string in let! z := matmul d x in
     let! e := CovariantD ["a"]%string in mret (e, z) : @M PolyOps (calc * calc)).
  assert (C : is_err EAttributeError (fst ((let! (e, z) := p in matmul e z) ex_w)) = true) by vmtrue.
  destruct (out_ok p ex_w) as ([e z] & w3 & H & _); [vmtrue|].
  rewrite (bind_ok _ _ _ _ _ H) in C. destruct (out_err _ _ _ C) as (w4 & E4 & _).
  unfold p in H. apply bind_inv in H as (x & w0 & E0 & H). apply bind_inv in H as (d & w1 & E1 & H). apply bind_inv in H as (z' & w2 & E2 & H).
  apply bind_inv in H as (e' & w3' & E3 & H). apply ret_inv in H as [H ->]. injection H as -> ->.
  exists ex_w, 3, x, w0, d, w1, z', w2, e', w3', w4. split; [apply ex_w_reachable|]. repeat (split; [assumption|]). exact E4.
Qed.
Lemma covariant_of_sum_witness :
  exists (w : @world PolyOps) t x w0 z w2 e w3 w4,
  reachable w /\ calc_call t ["b"]%string w = (Ok x, w0) /\ calc_add x (OCalc x) w0 = (Ok z, w2) /\
  CovariantD ["a"]%string w2 = (Ok e, w3) /\ matmul e z w3 = (Err EAttributeError, w4).
Proof.
  pose (p := let! x := calc_call 3 ["b"]%string in let! z := calc_add x (OCalc x) in
     let! e := CovariantD ["a"]%string in mret (e, z) : @M PolyOps (calc * calc)).
  assert (C : is_err EAttributeError (fst ((let! (e, z) := p in matmul e z) ex_w)) = true) by vmtrue.
  destruct (out_ok p ex_w) as ([e z] & w3 & H & _); [vmtrue|].
  rewrite (bind_ok _ _ _ _ _ H) in C. destruct (out_err _ _ _ C) as (w4 & E4 & _).
  unfold p in H. apply bind_inv in H as (x & w0 & E0 & H). apply bind_inv in H as (z' & w2 & E2 & H).
  apply bind_inv in H as (e' & w3' & E3 & H). apply ret_inv in H as [H ->]. injection H as -> ->.
  exists ex_w, 3, x, w0, z', w2, e', w3', w4. split; [apply ex_w_reachable|]. repeat (split; [assumption|]). exact E4.
Qed.
