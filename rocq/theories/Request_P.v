(** Christoffel symbols and Lagrangians requested in other coordinates. *)
From Coq Require Import Permutation.
From Verif Require Import Alg Alg_P Arr Arr_P Arr2_P UtilsM Utils_P Spec Act_P TensorM RL_P Jac_P Tensor_P Jacobian_P Chr_P Curv_P WorldM SpecWorld World_P Registry_P History_P CalcM SpecCalc Keep_P Calc_P SpecChange CurvCov_P CurvCov2_P CurvCov3_P GeodM SpecGeod Geod4_P SpecMissing SpecRequest.
Local Open Scope K_scope. Local Open Scope nat_scope.

Section Request.
Context {A : AlgOps} {L : AlgLaws A} {DL : DiffLaws A} {SL : SubsLaws A} {IL : InvLaws A}.
Variables (G : geometry) (m : oid) (w : world) (t c c' : oid) (R : list rule).
Hypothesis HC : consistent G.
Hypothesis HR : regular G.
Hypothesis HM : metric_represents G m w.
Hypothesis Hc : g_sys G c.
Hypothesis Er : dget Nat.eqb c' (g_rules G c) = Some R.
Notation n := (g_n G).
Notation xs := (g_syms G c).
Notation ys := (g_syms G c').

Lemma other_system : g_sys G c'.
Proof. destruct HC as (_ & _ & HE). apply (HE c c' R Hc Er). Qed.

Lemma jacobian_ready : exists w1 co J Ji C, w_check_jacobians c c' w = (Ok tt, w1) /\ obj_of w1 c = Some co /\ o_syms co = xs /\ o_trans co = g_rules G c /\
  dget Nat.eqb c' (o_jacs co) = Some (J, Ji, C) /\ calculate_jacobian xs ys R = Ok (J, Ji, C) /\
  (forall i, i <> c -> obj_of w1 i = obj_of w i) /\ (forall i, cls_of w1 i = cls_of w i) /\ (exists no, obj_of w1 c' = Some no /\ o_syms no = ys).
Proof.
  destruct HM as (_ & _ & _ & HS). destruct (HS c Hc) as (_ & co & Hco & S1 & S2 & S3). destruct (HS c' other_system) as (_ & no & Hno & N1 & _).
  destruct (HR c c' R Hc Er) as (_ & _ & [[J Ji] C] & EJ).
  unfold w_check_jacobians. rewrite (bind_ok _ _ co w w) by (apply getobj_ok, Hco). unfold dmem. destruct (dget Nat.eqb c' (o_jacs co)) as [[[J0 Ji0] C0]|] eqn:Ej.
  - destruct (S3 c' _ Ej) as (R' & E' & EJ'). assert (R' = R) by congruence. subst R'.
    exists w, co, J0, Ji0, C0. repeat (split; [first [reflexivity|assumption]|]). exists no. auto.
  - rewrite S2, Er. unfold w_calculate_jacobian. rewrite (bind_ok _ _ co w w) by (apply getobj_ok, Hco). rewrite (bind_ok _ _ no w w) by (apply getobj_ok, Hno).
    rewrite S2, Er. rewrite (bind_ok _ _ R w w) by reflexivity. rewrite S1, N1, EJ. rewrite (bind_ok _ _ (J, Ji, C) w w) by reflexivity.
    destruct (put_spec w c co (set_jacs (dset Nat.eqb c' (J, Ji, C) (o_jacs co)) co) Hco) as (w1 & E1 & _ & _ & Hcl & Hj).
    exists w1, (set_jacs (dset Nat.eqb c' (J, Ji, C) (o_jacs co)) co), J, Ji, C. split; [exact E1|]. split; [rewrite Hj, Nat.eqb_refl; reflexivity|].
    split; [exact S1|]. split; [exact S2|]. split; [apply dget_dset_same|]. split; [first [exact EJ|reflexivity]|].
    split; [intros i Ni; rewrite Hj; destruct (Nat.eqb_spec c i); congruence|]. split; [exact Hcl|].
    rewrite Hj. destruct (Nat.eqb_spec c c') as [<-|N]; [|exists no; auto]. exists (set_jacs (dset Nat.eqb c (J, Ji, C) (o_jacs co)) co). split; [reflexivity|exact S1].
Qed.

Lemma store_there w1 o i a : obj_of w1 t = Some o -> exists w2, store t c' i a w1 = (Ok tt, w2) /\ lookup t c' i w2 = (Ok a, w2).
Proof.
  intros Ho. unfold store. rewrite (bind_ok _ _ o w1 w1) by (apply getobj_ok, Ho). cbv zeta.
  match goal with |- exists w2, put t ?o' w1 = _ /\ _ => destruct (put_spec w1 t o o' Ho) as (w2 & E2 & _ & _ & _ & Hj) end.
  exists w2. split; [exact E2|]. unfold lookup. erewrite bind_ok by (apply getobj_ok; rewrite Hj, Nat.eqb_refl; reflexivity). cbn [o_comps set_comps].
  rewrite dget_dset_same. erewrite bind_ok by reflexivity. rewrite cget_set_same. reflexivity.
Qed.

(** Requests in coordinates in which nothing is stored, with the configuration given. *)
Lemma not_stored i k o : cls_of w t = Some k -> k <> CMetric -> k <> CCoordinates -> valid_cfg i -> obj_of w t = Some o -> length (o_indices o) = length i -> ~ stored_in w t c' ->
  forall a w2, transform_coordinates t c' i w = (Ok tt, w2) -> lookup t c' i w2 = (Ok a, w2) -> get_components t (Some c') (Some i) w = (Ok a, w2).
Proof.
  intros Hk Nm Nc V Ho Hl Hn a w2 E1 E2. assert (Hd : dget Nat.eqb c' (o_comps o) = None).
  { destruct (dget Nat.eqb c' (o_comps o)) eqn:E; [|reflexivity]. destruct Hn. exists o. split; [exact Ho|congruence]. }
  unfold get_components. rewrite (bind_ok _ _ o w w) by (apply getobj_ok, Ho). rewrite (bind_ok _ _ c' w w) by reflexivity.
  assert (Kc : cls_of w c' = Some CCoordinates) by (destruct HM as (_ & _ & _ & HS); apply (HS c' other_system)).
  unfold get_representation. rewrite (bind_ok _ _ true w w) by (unfold isinstance; rewrite Kc; reflexivity). cbn [negb].
  rewrite (bind_ok _ _ o w w) by (apply getobj_ok, Ho). rewrite (bind_ok _ _ tt w w) by (rewrite Hl; apply mlift_ok, validate_ok; [exact V|congruence|congruence]).
  rewrite (bind_ok _ _ false w w).
  - rewrite (bind_ok _ _ tt w w2) by exact E1. exact E2.
  - unfold check_representation. rewrite Hk. destruct k; try congruence; unfold tensor_check; rewrite (bind_ok _ _ o w w) by (apply getobj_ok, Ho); rewrite Hd; reflexivity.
Qed.

Lemma mat_tab (g : nat -> nat -> K) i j : i < n -> j < n -> aget (tab [n; n] (at2 g)) [i; j] = g i j.
Proof. intros Hi Hj. rewrite aget_tab; [reflexivity|]. apply (inb_rng n 2). split; [reflexivity|repeat constructor; assumption]. Qed.
Lemma mat_square (g : nat -> nat -> K) : square n (tab [n; n] (at2 g)).
Proof. split; [apply awf_tab|reflexivity]. Qed.
Lemma mat_holds (g : nat -> nat -> K) : holds n 2 (tab [n; n] (at2 g)) (at2 g).
Proof.
  split; [split; [apply awf_tab|reflexivity]|]. split; [reflexivity|]. intros ks Hk. rewrite aget_tab; [reflexivity|].
  destruct Hk. apply (inb_rng n 2); split; assumption.
Qed.

Lemma metric_there J Ji C : calculate_jacobian xs ys R = Ok (J, Ji, C) ->
  exists g', transform J Ji R 2 [-1; -1]%Z (tab [n; n] (at2 (g_G G c))) = Ok g' /\ square n g' /\
    forall i j, i < n -> j < n -> aget g' [i; j] == g_G G c' i j.
Proof.
  intros EJ. destruct HC as (_ & _ & HE). destruct (HE c c' R Hc Er) as (_ & _ & _ & Lg).
  assert (M : moved n R J Ji [-1; -1]%Z (at2 (g_G G c)) (at2 (g_G G c'))).
  { apply (law_moved G HR c c' R J Ji C Hc Er EJ 2). intros idx Hi. assert (Hi' := Hi). destruct idx as [|i [|j [|]]]; try (destruct Hi as [Hi _]; discriminate Hi).
    assert (E := Lg [i; j] Hi'). change (at2 (g_G G c') [i; j]) with (mat_comps (g_G G c') [i; j]). rewrite E.
    apply (hom_proper _ (hom_subs_seq R)). cbn [repeat]. rewrite !act2. reflexivity. }
  destruct (M _ (mat_holds (g_G G c))) as (g' & E & (W & S) & Rk & V). exists g'. split; [exact E|]. split; [split; [exact W|]|].
  - rewrite Rk in S. exact S.
  - intros i j Hi Hj. apply (V [i; j]). split; [reflexivity|repeat constructor; assumption].
Qed.

Lemma first_not_expr o d rest : o_comps o = (c, d) :: rest -> is_expr o c = false.
Proof. intros E. unfold is_expr. rewrite E. cbn. rewrite Nat.eqb_refl. apply andb_false_r. Qed.

Lemma requested_christoffel a0 : cls_of w t = Some CChristoffel -> given_in w t c [1; -1; -1]%Z a0 ->
  holds n 3 a0 (at3 (Gam n xs (g_G G c) (g_Gi G c))) -> ~ stored_in w t c' ->
  exists a w', get_components t (Some c') (Some [1; -1; -1]%Z) w = (Ok a, w') /\ holds n 3 a (at3 (Gam n ys (g_G G c') (g_Gi G c'))).
Proof.
  intros Hk (o & d & rest & Ho & Hoc & Hrk & Hli & Hcs & Ha0) ((W0 & S0) & R0 & V0) Hn.
  destruct jacobian_ready as (w1 & co & J & Ji & C & E1 & Hco & Sx & St & Ej & EJ & Keep & KC & _).
  assert (Hcc : cls_of w c = Some CCoordinates) by (destruct HM as (_ & _ & _ & HS); apply (HS c Hc)).
  assert (Ntc : t <> c) by congruence. assert (Ho1 : obj_of w1 t = Some o) by (rewrite Keep; assumption).
  destruct (edge_change G HR c c' R Hc Er) as (Hn1 & Lx & Ly & Nd & Pm & Dis & Fr). destruct (metric_there J Ji C EJ) as (g' & Eg & Sg' & Vg').
  destruct (HR c c' R Hc Er) as (_ & Hw & _). destruct HC as (_ & HS & _). destruct (HS c Hc) as (_ & Inv & Sym). destruct (HS c' other_system) as (_ & Inv' & _).
  rewrite R0 in S0. cbn [repeat] in S0.
  destruct (christoffel_transform_spec n xs ys R (tab [n; n] (at2 (g_G G c))) (tab [n; n] (at2 (g_Gi G c))) a0 J Ji C g' (tab [n; n] (at2 (g_Gi G c'))))
    as (a & Ea & Wa & Sa & Va); try assumption; try apply mat_square.
  - intros i j Hi Hj. unfold mfun. rewrite !mat_tab by assumption. apply Sym; assumption.
  - destruct Inv as [I1 I2]. split; intros i j Hi Hj; [rewrite <- (I1 i j Hi Hj)|rewrite <- (I2 i j Hi Hj)]; apply nsum_ext; intros k Hk0; unfold mfun; rewrite !mat_tab by assumption; reflexivity.
  - intros s i j Hs Hi Hj. rewrite mat_tab by assumption. apply (Hw s [i; j] Hs). split; [reflexivity|repeat constructor; assumption].
  - intros i j k Hi Hj Hk0. rewrite (V0 [i; j; k]) by (split; [reflexivity|repeat constructor; assumption]). unfold at3, Gam, christoffel_of. cbn [nth].
    apply nsum_ext. intros l Hl. unfold mfun. rewrite !mat_tab by assumption. reflexivity.
  - destruct Inv' as [I1 I2]. split; intros i j Hi Hj; [rewrite <- (I1 i j Hi Hj)|rewrite <- (I2 i j Hi Hj)]; apply nsum_ext; intros k Hk0; unfold mfun; rewrite !mat_tab by assumption; rewrite Vg' by assumption; reflexivity.
  - destruct (store_there w1 o [1; -1; -1]%Z a Ho1) as (w2 & E2 & E3). exists a, w2. split.
    + apply (not_stored [1; -1; -1]%Z CChristoffel o); try assumption; try discriminate. { repeat (apply Forall_cons; [auto|]). apply Forall_nil. }
      unfold transform_coordinates. rewrite Hk. unfold w_christoffel_transform. rewrite (bind_ok _ _ o w w) by (apply getobj_ok, Ho).
      rewrite (bind_ok _ _ c w w) by (rewrite Hoc; reflexivity). rewrite (bind_ok _ _ tt w w1) by exact E1.
      rewrite (bind_ok _ _ a0 w1 w1).
      2:{ unfold lookup. rewrite (bind_ok _ _ o w1 w1) by (apply getobj_ok, Ho1). rewrite Hcs. unfold dget at 1. cbn. rewrite Nat.eqb_refl. cbn. rewrite Ha0. reflexivity. }
      rewrite (bind_ok _ _ co w1 w1) by (apply getobj_ok, Hco). rewrite (bind_ok _ _ (J, Ji, C) w1 w1) by (rewrite Ej; reflexivity).
      rewrite (bind_ok _ _ R w1 w1) by (rewrite St, Er; reflexivity). rewrite (bind_ok _ _ tt w1 w1) by (unfold need_array; rewrite (first_not_expr o d rest Hcs); reflexivity).
      rewrite Hrk, Sx. cbn [length]. rewrite (bind_ok _ _ a w1 w1) by (apply mlift_ok; exact Ea). exact E2.
    + assert (Ra : rank a = 3) by (unfold rank; rewrite Sa; reflexivity). split; [split; [exact Wa|rewrite Ra; exact Sa]|]. split; [exact Ra|]. intros idx [Hl Hr].
      destruct idx as [|i [|j [|k [|]]]]; try discriminate Hl. inversion Hr as [|? ? Hi Hr1]; subst. inversion Hr1 as [|? ? Hj Hr2]; subst. inversion Hr2 as [|? ? Hk0 _]; subst.
      rewrite Va by assumption. unfold at3, Gam, christoffel_of. cbn [nth]. apply nsum_ext. intros l Hl0. unfold mfun. rewrite mat_tab by assumption. unfold at2. cbn [nth].
      rewrite (kdiff_proper _ _ _ (Vg' l k Hl0 Hk0)), (kdiff_proper _ _ _ (Vg' j l Hj Hl0)), (kdiff_proper _ _ _ (Vg' j k Hj Hk0)). reflexivity.
Qed.

Context {YL : SymLaws A}.
Lemma requested_lagrangian a0 : cls_of w t = Some CLagrangian -> given_in w t c [] a0 ->
  curve_change curve_parameter xs ys R ->
  (forall i j x, i < n -> j < n -> In x xs -> free_of (x ++ "dot")%string (g_G G c i j)) ->
  holds n 0 a0 (fun _ => metric_lagrangian n xs (g_G G c)) -> ~ stored_in w t c' ->
  exists a w', get_components t (Some c') (Some []) w = (Ok a, w') /\ holds n 0 a (fun _ => metric_lagrangian n ys (g_G G c')).
Proof.
  intros Hk (o & d & rest & Ho & Hoc & Hrk & Hli & Hcs & Ha0) (Q1 & Q2 & Q3 & Q4 & Q5) Hgf ((W0 & S0) & R0 & V0) Hn.
  destruct jacobian_ready as (w1 & co & J & Ji & C & E1 & Hco & Sx & St & Ej & EJ & Keep & KC & no & Hno & Sy).
  assert (Hcc : cls_of w c = Some CCoordinates) by (destruct HM as (_ & _ & _ & HS); apply (HS c Hc)).
  assert (Ntc : t <> c) by congruence. assert (Ho1 : obj_of w1 t = Some o) by (rewrite Keep; assumption).
  destruct (edge_change G HR c c' R Hc Er) as (Hn1 & Lx & Ly & Nd & Pm & Dis & Fr). destruct (metric_there J Ji C EJ) as (g' & Eg & Sg' & Vg').
  rewrite R0 in S0. cbn [repeat] in S0.
  destruct (lagrangian_transform_spec n curve_parameter xs ys R (tab [n; n] (at2 (g_G G c))) a0 J Ji C g')
    as (a & Ea & Wa & Sa & Va); try assumption; try apply mat_square.
  - intros i j x Hi Hj Hx. rewrite mat_tab by assumption. apply Hgf; assumption.
  - rewrite (V0 []) by (split; [reflexivity|constructor]). unfold metric_lagrangian, lagrangian_of. apply nsum_ext. intros i Hi. apply nsum_ext. intros j Hj. unfold mfun. rewrite mat_tab by assumption. reflexivity.
  - destruct (store_there w1 o [] a Ho1) as (w2 & E2 & E3). exists a, w2. split.
    + apply (not_stored [] CLagrangian o); try assumption; try discriminate. { constructor. }
      unfold transform_coordinates. rewrite Hk. unfold w_curve_transform. rewrite (bind_ok _ _ o w w) by (apply getobj_ok, Ho).
      rewrite (bind_ok _ _ c w w) by (rewrite Hoc; reflexivity). rewrite (bind_ok _ _ tt w w1) by exact E1.
      rewrite (bind_ok _ _ a0 w1 w1).
      2:{ unfold lookup. rewrite (bind_ok _ _ o w1 w1) by (apply getobj_ok, Ho1). rewrite Hcs. unfold dget at 1. cbn. rewrite Nat.eqb_refl. cbn. rewrite Ha0. reflexivity. }
      rewrite (bind_ok _ _ co w1 w1) by (apply getobj_ok, Hco). rewrite (bind_ok _ _ (J, Ji, C) w1 w1) by (rewrite Ej; reflexivity).
      rewrite (bind_ok _ _ R w1 w1) by (rewrite St, Er; reflexivity). rewrite (bind_ok _ _ tt w1 w1) by (unfold need_array; rewrite (first_not_expr o d rest Hcs); reflexivity).
      rewrite (bind_ok _ _ no w1 w1) by (apply getobj_ok, Hno). rewrite Hrk, Sy. cbn [length]. rewrite (bind_ok _ _ a w1 w1) by (apply mlift_ok; exact Ea). exact E2.
    + assert (Ra : rank a = 0) by (unfold rank; rewrite Sa; reflexivity). split; [split; [exact Wa|rewrite Ra; exact Sa]|]. split; [exact Ra|]. intros idx [Hl _].
      destruct idx; [|discriminate Hl]. rewrite Va. unfold metric_lagrangian, lagrangian_of. apply nsum_ext. intros i Hi. apply nsum_ext. intros j Hj. unfold mfun. rewrite Vg' by assumption. reflexivity.
Qed.
End Request.
