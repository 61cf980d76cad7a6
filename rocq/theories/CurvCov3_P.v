(** Curvature tensors of a geometry: their components in all coordinate systems belong together. *)
From Verif Require Import Alg Alg_P Arr Arr_P Arr2_P UtilsM Utils_P Spec Act_P TensorM RL_P Jac_P Tensor_P Jacobian_P Chr_P Curv_P SpecWorld SpecChange CurvCov_P CurvCov2_P.
From Coq Require Import Permutation.
Local Open Scope K_scope.

Section Wrap.
Context {A : AlgOps} {L : AlgLaws A} {DL : DiffLaws A} {SL : SubsLaws A} {IL : InvLaws A}.
Add Ring Kring : kring (setoid keq_equiv kring_ext).

Lemma vdown k : valid_cfg (repeat (-1)%Z k).
Proof. induction k; cbn; constructor; auto. Qed.
Lemma jac_down (J JI : nat -> nat -> K) k : map (jac J JI) (repeat (-1)%Z k) = repeat (mtr J) k.
Proof. induction k; cbn; [reflexivity|]. rewrite IHk. reflexivity. Qed.

Lemma metric_change_fun n xs ys R J Ji C g gi g' gi' : coordinate_change n xs ys R -> calculate_jacobian xs ys R = Ok (J, Ji, C) ->
  metric_change n ys R J Ji g gi g' gi' ->
  forall i j, (i < n)%nat -> (j < n)%nat ->
  g' i j == nsum n (fun p => nsum n (fun q => mfun J p i * mfun J q j * subs_seq R (g p q))).
Proof.
  intros HX EJ (_ & _ & _ & _ & a & a' & Ha & Ea & Ha') i j Hi Hj.
  assert (V : valid_cfg [-1; -1]%Z) by exact (vdown 2).
  destruct (moved_act n xs ys R J Ji C HX EJ [-1; -1]%Z (at2 g) (act n (map (jac (mfun J) (hmat (subs_seq R) (mfun Ji))) [-1; -1]%Z) (fun ks => subs_seq R (at2 g ks))) V ltac:(intros; reflexivity) a Ha) as (b & Eb & _ & _ & Gb).
  cbn [length] in *. assert (b = a') by congruence. subst b. destruct Ha' as (_ & _ & Ga').
  assert (IR : in_range n 2 [i; j]) by (split; [reflexivity|repeat constructor; assumption]).
  specialize (Ga' [i; j] IR). specialize (Gb [i; j] IR). rewrite Ga' in Gb. unfold at2 in Gb at 1. cbn [nth] in Gb. rewrite Gb.
  cbn [map jac Z.eqb Pos.eqb]. rewrite act2. reflexivity.
Qed.

Section W.
Variables (n : nat) (xs ys : list string) (R : list rule) (J Ji C : arr) (g gi g' gi' : nat -> nat -> K).
Hypothesis HX : coordinate_change n xs ys R.
Hypothesis EJ : calculate_jacobian xs ys R = Ok (J, Ji, C).
Hypothesis HM : metric_change n ys R J Ji g gi g' gi'.

Lemma change_curvature :
  moved n R J Ji [1; -1; -1; -1]%Z (at4 (Rie n xs g gi)) (at4 (Rie n ys g' gi')) /\
  moved n R J Ji [-1; -1]%Z (at2 (Ric n xs g gi)) (at2 (Ric n ys g' gi')) /\
  moved n R J Ji [] (fun _ => Sca n xs g gi) (fun _ => Sca n ys g' gi') /\
  moved n R J Ji [-1; -1]%Z (at2 (Ein n xs g gi)) (at2 (Ein n ys g' gi')).
Proof.
  assert (Hg := metric_change_fun n xs ys R J Ji C g gi g' gi' HX EJ HM). destruct HM as (H1 & H2 & H3 & H4 & _).
  split; [eapply moved_riemann; eassumption|]. split; [eapply moved_ricci; eassumption|]. split; [eapply moved_scalar; eassumption|eapply moved_einstein; eassumption].
Qed.
Lemma change_weyl : (3 <= n)%nat -> moved n R J Ji [-1; -1; -1; -1]%Z (at4 (Wey n xs g gi)) (at4 (Wey n ys g' gi')).
Proof.
  assert (Hg := metric_change_fun n xs ys R J Ji C g gi g' gi' HX EJ HM). destruct HM as (H1 & H2 & H3 & H4 & _).
  intros Hn. eapply moved_weyl; eassumption.
Qed.
Lemma change_derived i f f' : valid_cfg i -> without_symbols n ys (length i) f -> moved n R J Ji i f f' ->
  moved n R J Ji (-1 :: i)%Z (derived n xs g gi i f) (derived n ys g' gi' i f').
Proof.
  assert (Hg := metric_change_fun n xs ys R J Ji C g gi g' gi' HX EJ HM). destruct HM as (H1 & H2 & H3 & H4 & _).
  eapply moved_derived; eassumption.
Qed.
End W.

(** *** Geometries *)
Section Geo.
Variable G : geometry.
Hypothesis HC : consistent G.
Hypothesis HR : regular G.

Section Edge.
Variables (c c' : oid) (R : list rule) (J Ji C : arr).
Hypothesis Hc : g_sys G c.
Hypothesis Er : dget Nat.eqb c' (g_rules G c) = Some R.
Hypothesis EJ : calculate_jacobian (g_syms G c) (g_syms G c') R = Ok (J, Ji, C).

Lemma edge_change : coordinate_change (g_n G) (g_syms G c) (g_syms G c') R.
Proof. apply (HR c c' R Hc Er). Qed.
Lemma edge_jac p q : (p < g_n G)%nat -> (q < g_n G)%nat -> jacobian_fun (g_syms G c) (g_syms G c') R p q == mfun J p q.
Proof.
  intros Hp Hq. destruct (c_spec _ _ _ _ _ _ _ edge_change EJ) as (_ & _ & _ & H). destruct (H p Hp) as (r & Hr & _ & Hd).
  rewrite (Hd q Hq). unfold jacobian_fun. rewrite Hr. reflexivity.
Qed.

(** the covariant law and the transformation *)
Lemma law_act k f f' :
  (forall idx, in_range (g_n G) k idx -> f' idx == act (g_n G) (repeat (mtr (mfun J)) k) (fun ks => subs_seq R (f ks)) idx) <->
  covariant_law G k c c' R f f'.
Proof.
  assert (E : forall idx, in_range (g_n G) k idx ->
    subs_seq R (act (g_n G) (repeat (fun i q => jacobian_fun (g_syms G c) (g_syms G c') R q i) k) f idx) ==
    act (g_n G) (repeat (mtr (mfun J)) k) (fun ks => subs_seq R (f ks)) idx).
  { intros idx [Hl Hr]. rewrite hom_act; [|apply hom_subs_seq|rewrite repeat_length; lia].
    apply act_mext; [rewrite map_length, repeat_length; lia|exact Hr|].
    clear Hl Hr. induction k as [|k IH]; cbn; constructor; [|exact IH]. intros p q Hp Hq. unfold hmat, mtr.
    rewrite (hom_proper _ (hom_subs_seq R) _ _ (edge_jac q p Hq Hp)).
    exact (c_sJ _ _ _ _ _ _ _ edge_change EJ q p Hq Hp). }
  split; intros H idx Hi; [rewrite (E idx Hi)|rewrite <- (E idx Hi)]; apply H, Hi.
Qed.
Lemma law_moved k f f' : moved (g_n G) R J Ji (repeat (-1)%Z k) f f' <-> covariant_law G k c c' R f f'.
Proof.
  rewrite <- law_act. split.
  - intros H idx Hi. rewrite (moved_inv _ _ _ _ _ _ _ edge_change EJ _ _ _ (vdown k) H) by (rewrite repeat_length; exact Hi).
    rewrite jac_down. reflexivity.
  - intros H. apply (moved_act _ _ _ _ _ _ _ edge_change EJ); [apply vdown|]. intros idx Hi. rewrite repeat_length in Hi. rewrite jac_down. apply H, Hi.
Qed.

Lemma edge_metric : metric_change (g_n G) (g_syms G c') R J Ji (g_G G c) (g_Gi G c) (g_G G c') (g_Gi G c').
Proof.
  destruct HC as (Hn & HS & HE). destruct (HS c Hc) as (Lx & Inv & Sym). destruct (HE c c' R Hc Er) as (Hc' & _ & _ & Lg).
  destruct (HS c' Hc') as (_ & Inv' & _). destruct (HR c c' R Hc Er) as (HX & Hw & _).
  split; [exact Sym|]. split; [exact Inv|]. split; [exact Inv'|]. split; [exact Hw|].
  assert (Ha : holds (g_n G) 2 (tab [g_n G; g_n G] (at2 (g_G G c))) (at2 (g_G G c))).
  { split; [split; [apply awf_tab|reflexivity]|]. split; [reflexivity|]. intros ks Hk. rewrite aget_tab; [reflexivity|]. destruct Hk. apply (inb_rng (g_n G) 2); split; assumption. }
  assert (M : moved (g_n G) R J Ji [-1; -1]%Z (at2 (g_G G c)) (at2 (g_G G c'))).
  { apply (law_moved 2). intros idx Hi. assert (Hi' := Hi). destruct idx as [|i [|j [|]]]; try (destruct Hi as [Hi _]; discriminate Hi).
    assert (E := Lg [i; j] Hi'). change (at2 (g_G G c') [i; j]) with (mat_comps (g_G G c') [i; j]). rewrite E.
    apply (hom_proper _ (hom_subs_seq R)). cbn [repeat]. rewrite !act2. reflexivity. }
  destruct (M _ Ha) as (a' & E & Ha'). eexists; exists a'. split; [exact Ha|]. split; [exact E|exact Ha'].
Qed.
End Edge.

Lemma regular_tensor k (T : oid -> list nat -> K) :
  (forall c c' R J Ji C, g_sys G c -> dget Nat.eqb c' (g_rules G c) = Some R ->
     calculate_jacobian (g_syms G c) (g_syms G c') R = Ok (J, Ji, C) ->
     moved (g_n G) R J Ji (repeat (-1)%Z k) (T c) (T c')) ->
  consistent (with_tensor G k T).
Proof.
  intros H. destruct HC as (Hn & HS & HE). split; [exact Hn|]. split; [exact HS|]. intros c c' R Hc Er.
  destruct (HE c c' R Hc Er) as (Hc' & Hd & _ & Lg). split; [exact Hc'|]. split; [exact Hd|]. split; [|exact Lg].
  destruct (HR c c' R Hc Er) as (_ & _ & [[J Ji] C] & EJ). apply (proj1 (law_moved c c' R J Ji C Hc Er EJ k (T c) (T c'))).
  exact (H c c' R J Ji C Hc Er EJ).
Qed.

Lemma consistent_ricci : consistent (with_tensor G 2 (geo_ricci G)).
Proof.
  apply regular_tensor. intros c c' R J Ji C Hc Er EJ.
  exact (proj1 (proj2 (change_curvature _ _ _ _ _ _ _ _ _ _ _ (edge_change c c' R Hc Er) EJ (edge_metric c c' R J Ji C Hc Er EJ)))).
Qed.
Lemma consistent_scalar : consistent (with_tensor G 0 (geo_scalar G)).
Proof.
  apply regular_tensor. intros c c' R J Ji C Hc Er EJ.
  exact (proj1 (proj2 (proj2 (change_curvature _ _ _ _ _ _ _ _ _ _ _ (edge_change c c' R Hc Er) EJ (edge_metric c c' R J Ji C Hc Er EJ))))).
Qed.
Lemma consistent_einstein : consistent (with_tensor G 2 (geo_einstein G)).
Proof.
  apply regular_tensor. intros c c' R J Ji C Hc Er EJ.
  exact (proj2 (proj2 (proj2 (change_curvature _ _ _ _ _ _ _ _ _ _ _ (edge_change c c' R Hc Er) EJ (edge_metric c c' R J Ji C Hc Er EJ))))).
Qed.
Lemma consistent_weyl : (3 <= g_n G)%nat -> consistent (with_tensor G 4 (geo_weyl G)).
Proof.
  intros Hn. apply regular_tensor. intros c c' R J Ji C Hc Er EJ.
  exact (change_weyl _ _ _ _ _ _ _ _ _ _ _ (edge_change c c' R Hc Er) EJ (edge_metric c c' R J Ji C Hc Er EJ) Hn).
Qed.
Lemma consistent_riemann : consistent (with_tensor G 4 (geo_riemann G)).
Proof.
  apply regular_tensor. intros c c' R J Ji C Hc Er EJ. assert (HX := edge_change c c' R Hc Er). assert (HM := edge_metric c c' R J Ji C Hc Er EJ).
  assert (Hg := metric_change_fun _ _ _ _ _ _ _ _ _ _ _ HX EJ HM). destruct HM as (H1 & H2 & H3 & H4 & _).
  exact (moved_lowered _ _ _ _ _ _ _ _ _ _ _ HX EJ H1 H2 H3 H4 Hg).
Qed.
End Geo.
End Wrap.
