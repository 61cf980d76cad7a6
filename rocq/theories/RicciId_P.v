(** The Ricci identity: the commutator of two covariant derivatives of a tensor of any rank. *)
From Verif Require Import Alg Alg_P Arr Arr_P Spec SpecCurv SpecCov SpecDeriv Act_P Tensor_P Curv_P CurvCov_P.
From Coq Require Import Setoid.
Local Open Scope K_scope.

Section Conn.
Context {A : AlgOps} {L : AlgLaws A} {D : DiffLaws A}.
Add Ring Kring : kring (setoid keq_equiv kring_ext).
Variable n : nat.
Notation conn := (conn n).
Notation below := (Forall (fun i => (i < n)%nat)).

Lemma conn_add W zs F F' idx : conn W zs (fun ks => F ks + F' ks) idx == conn W zs F idx + conn W zs F' idx.
Proof. unfold CurvCov_P.conn. rewrite <- nsum_add. apply nsum_ext. intros j _. rewrite <- nsum_add. apply nsum_ext. intros d _. ring. Qed.
Lemma conn_madd W W' zs F idx : conn (fun z i d => W z i d + W' z i d) zs F idx == conn W zs F idx + conn W' zs F idx.
Proof. unfold CurvCov_P.conn. rewrite <- nsum_add. apply nsum_ext. intros j _. rewrite <- nsum_add. apply nsum_ext. intros d _. ring. Qed.
Lemma conn_msub W W' zs F idx : conn (fun z i d => W z i d - W' z i d) zs F idx == conn W zs F idx - conn W' zs F idx.
Proof. unfold CurvCov_P.conn. rewrite <- nsum_sub. apply nsum_ext. intros j _. rewrite <- nsum_sub. apply nsum_ext. intros d _. ring. Qed.
Lemma conn_diff s W zs F idx :
  kdiff s (conn W zs F idx) == conn (fun z i d => kdiff s (W z i d)) zs F idx + conn W zs (fun ks => kdiff s (F ks)) idx.
Proof.
  unfold CurvCov_P.conn. rewrite kdiff_nsum, <- nsum_add. apply nsum_ext. intros j _. rewrite kdiff_nsum, <- nsum_add. apply nsum_ext. intros d _.
  rewrite kdiff_mul. ring.
Qed.

Lemma conn_commutator W V zs : forall F idx, length idx = length zs -> below idx ->
  conn W zs (conn V zs F) idx - conn V zs (conn W zs F) idx ==
  conn (fun z i d => nsum n (fun s => W z i s * V z s d) - nsum n (fun s => V z i s * W z s d)) zs F idx.
Proof.
  induction zs as [|z zs IH]; intros F idx Hl Hr.
  - unfold CurvCov_P.conn. cbn. ring.
  - destruct idx as [|i idx]; [discriminate Hl|]. cbn in Hl. injection Hl as Hl. inversion Hr as [|i' l Hi Hr' E]; subst i' l.
    assert (H : forall W1 V1, conn W1 (z :: zs) (conn V1 (z :: zs) F) (i :: idx) ==
      nsum n (fun d => nsum n (fun s => W1 z i s * V1 z s d) * F (d :: idx)) +
      nsum n (fun d => W1 z i d * conn V1 zs (fun ks => F (d :: ks)) idx) +
      nsum n (fun d => V1 z i d * conn W1 zs (fun ks => F (d :: ks)) idx) +
      conn W1 zs (conn V1 zs (fun ks => F (i :: ks))) idx).
    { intros W1 V1. rewrite conn_cons.
      assert (E1 : nsum n (fun d => W1 z i d * conn V1 (z :: zs) F (d :: idx)) ==
        nsum n (fun d => nsum n (fun s => W1 z i s * V1 z s d) * F (d :: idx)) + nsum n (fun d => W1 z i d * conn V1 zs (fun ks => F (d :: ks)) idx)).
      { transitivity (nsum n (fun d => nsum n (fun e => W1 z i d * V1 z d e * F (e :: idx)) + W1 z i d * conn V1 zs (fun ks => F (d :: ks)) idx)).
        - apply nsum_ext. intros d _. rewrite conn_cons. setoid_replace (nsum n (fun e => W1 z i d * V1 z d e * F (e :: idx))) with (W1 z i d * nsum n (fun e => V1 z d e * F (e :: idx))); [ring|].
          rewrite <- nsum_scale. apply nsum_ext. intros e _. ring.
        - rewrite nsum_add. apply kadd_proper; [|reflexivity]. rewrite nsum_swap. apply nsum_ext. intros d _. rewrite <- nsum_scale_r. reflexivity. }
      rewrite E1.
      assert (E2 : conn W1 zs (fun ks => conn V1 (z :: zs) F (i :: ks)) idx ==
        nsum n (fun d => V1 z i d * conn W1 zs (fun ks => F (d :: ks)) idx) + conn W1 zs (conn V1 zs (fun ks => F (i :: ks))) idx).
      { rewrite <- conn_sum, <- conn_add. apply conn_ext; [exact Hl|exact Hr'|]. intros ks _ _. apply conn_cons. }
      rewrite E2. ring. }
    rewrite (H W V), (H V W). rewrite conn_cons, <- IH by assumption.
    setoid_replace (nsum n (fun d => (nsum n (fun s => W z i s * V z s d) - nsum n (fun s => V z i s * W z s d)) * F (d :: idx)))
      with (nsum n (fun d => nsum n (fun s => W z i s * V z s d) * F (d :: idx)) - nsum n (fun d => nsum n (fun s => V z i s * W z s d) * F (d :: idx))); [ring|].
    rewrite <- nsum_sub. apply nsum_ext. intros d _. ring.
Qed.
End Conn.

Section Ricci.
Context {A : AlgOps} {L : AlgLaws A} {D : DiffLaws A}.
Add Ring Kring : kring (setoid keq_equiv kring_ext).
Variables (n : nat) (x : nat -> string) (G : nat -> nat -> nat -> K).
Hypothesis Gs : forall i j k, (j < n)%nat -> (k < n)%nat -> G i j k == G i k j.
Notation conn := (CurvCov_P.conn n).
Notation below := (Forall (fun i => (i < n)%nat)).
Notation cov := (covariant_of n x G).

Lemma covariant_front (i : list Z) T a b idx : length idx = length i -> below idx ->
  cov (-1 :: i)%Z (fun ks => cov i T (nth 0 ks 0%nat) (tl ks)) a (b :: idx) ==
  kdiff (x a) (kdiff (x b) (T idx)) - nsum n (fun d => G d a b * cov i T d idx) +
  conn (fun z j d => kdiff (x a) (wz G b z j d)) i T idx + conn (wz G b) i (fun ks => kdiff (x a) (T ks)) idx +
  conn (wz G a) i (fun ks => kdiff (x b) (T ks)) idx + conn (wz G a) i (conn (wz G b) i T) idx.
Proof.
  intros Hl Hr. rewrite (covariant_conn n) by reflexivity. rewrite conn_cons. cbn [nth tl].
  assert (C : forall ks, cov i T b ks == kdiff (x b) (T ks) + conn (wz G b) i T ks) by (intros ks; apply covariant_conn; reflexivity).
  rewrite (kdiff_proper _ _ _ (C idx)), kdiff_add, conn_diff.
  assert (E1 : conn (wz G a) i (fun ks => cov i T b ks) idx == conn (wz G a) i (fun ks => kdiff (x b) (T ks)) idx + conn (wz G a) i (conn (wz G b) i T) idx).
  { rewrite <- conn_add. apply conn_ext; [exact Hl|exact Hr|]. intros ks _ _. apply C. }
  rewrite E1. unfold wz at 3. cbn [Z.eqb].
  setoid_replace (nsum n (fun d => - G d a b * cov i T d idx)) with (- nsum n (fun d => G d a b * cov i T d idx)); [ring|].
  rewrite <- nsum_opp. apply nsum_ext. intros d _. ring.
Qed.

Lemma ricci_identity (i : list Z) T a b idx : valid_cfg i -> (a < n)%nat -> (b < n)%nat -> length idx = length i -> below idx ->
  cov (-1 :: i)%Z (fun ks => cov i T (nth 0 ks 0%nat) (tl ks)) a (b :: idx) -
  cov (-1 :: i)%Z (fun ks => cov i T (nth 0 ks 0%nat) (tl ks)) b (a :: idx) ==
  curvature_terms n (riemann_of n x G) i T a b idx.
Proof.
  intros Vi Ha Hb Hl Hr. rewrite !covariant_front by assumption.
  assert (Eg : nsum n (fun d => G d a b * cov i T d idx) == nsum n (fun d => G d b a * cov i T d idx)).
  { apply nsum_ext. intros d _. rewrite (Gs d a b Ha Hb). reflexivity. }
  rewrite Eg, (kdiff_comm (x a) (x b)).
  assert (Er : curvature_terms n (riemann_of n x G) i T a b idx ==
    conn (fun z j d => (kdiff (x a) (wz G b z j d) - kdiff (x b) (wz G a z j d)) +
      (nsum n (fun s => wz G a z j s * wz G b z s d) - nsum n (fun s => wz G b z j s * wz G a z s d))) i T idx).
  { unfold curvature_terms, CurvCov_P.conn. apply nsum_ext. intros j Hj. unfold wz.
    destruct (Z.eqb_spec (nth j i 0%Z) 1) as [E|E].
    - apply nsum_ext. intros d _. unfold riemann_of. ring.
    - rewrite <- nsum_opp. apply nsum_ext. intros d _. unfold riemann_of. rewrite !kdiff_opp.
      setoid_replace (nsum n (fun s => - G s a (nth j idx 0%nat) * - G d b s)) with (nsum n (fun l => G d b l * G l a (nth j idx 0%nat))) by (apply nsum_ext; intros; ring).
      setoid_replace (nsum n (fun s => - G s b (nth j idx 0%nat) * - G d a s)) with (nsum n (fun l => G d a l * G l b (nth j idx 0%nat))) by (apply nsum_ext; intros; ring).
      ring. }
  rewrite Er, conn_madd, conn_msub, <- conn_commutator by assumption. ring.
Qed.
End Ricci.
