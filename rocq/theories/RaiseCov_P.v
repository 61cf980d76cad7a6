(** Covariant derivatives commute with raising and lowering indices. *)
From Verif Require Import Alg Alg_P Arr Arr_P Spec SpecCurv SpecCov Act_P Tensor_P Curv_P CovId_P CurvCov_P RicciId_P.
From Coq Require Import Setoid.
Local Open Scope K_scope.

Section Raise.
Context {A : AlgOps} {L : AlgLaws A} {D : DiffLaws A}.
Add Ring Kring : kring (setoid keq_equiv kring_ext).
Variables (n : nat) (x : nat -> string) (g gi : nat -> nat -> K).
Hypothesis Hs : symmetric_fun n g.
Hypothesis Hinv : inverse_fun n g gi.
Notation G := (christoffel_of n x g gi).

(** The old and the new position of an index in one number. *)
Definition code (st : Z * Z) : Z := (2 * fst st + snd st)%Z.
Definition code_old (z : Z) : Z := if (0 <? z)%Z then 1%Z else (-1)%Z.
Definition code_new (z : Z) : Z := (z - 2 * code_old z)%Z.
Definition code_matrix (z : Z) : nat -> nat -> K := conv g gi (code_old z) (code_new z).

Lemma code_spec s t : (s = 1 \/ s = -1)%Z -> (t = 1 \/ t = -1)%Z -> code_old (code (s, t)) = s /\ code_new (code (s, t)) = t.
Proof. intros [->| ->] [->| ->]; split; reflexivity. Qed.

Lemma code_frame k z i p : (exists s t, (s = 1 \/ s = -1)%Z /\ (t = 1 \/ t = -1)%Z /\ z = code (s, t)) -> (k < n)%nat -> (i < n)%nat -> (p < n)%nat ->
  kdiff (x k) (code_matrix z i p) + nsum n (fun d => wz G k (code_new z) i d * code_matrix z d p) ==
  nsum n (fun q => code_matrix z i q * wz G k (code_old z) q p).
Proof.
  intros (s & t & Vs & Vt & ->) Hk Hi Hp. unfold code_matrix. destruct (code_spec s t Vs Vt) as [-> ->]. unfold conv, wz.
  destruct Vs as [-> | ->]; destruct Vt as [-> | ->]; cbn [Z.eqb Pos.eqb].
  - rewrite kdiff_delta, (nsum_delta_r n p (fun d => G i k d) Hp), (nsum_delta_l n i (fun q => G q k p) Hi). ring.
  - rewrite (dg n x g gi Hs Hinv k i p Hi Hp Hk).
    assert (E1 : nsum n (fun d => - G d k i * g d p) == - nsum n (fun s => G s k i * g s p)) by (rewrite <- nsum_opp; apply nsum_ext; intros; ring).
    rewrite E1.
    transitivity (nsum n (fun s => G s k p * g i s)); [ring|]. apply nsum_ext. intros q _. ring.
  - rewrite (dgi n x g gi Hs Hinv k i p Hi Hp Hk).
    assert (E1 : nsum n (fun q => gi i q * - G p k q) == - nsum n (fun s => G p k s * gi i s)) by (rewrite <- nsum_opp; apply nsum_ext; intros; ring).
    rewrite E1. ring.
  - rewrite kdiff_delta, (nsum_delta_r n p (fun d => - G d k i) Hp), (nsum_delta_l n i (fun q => - G p k q) Hi). ring.
Qed.

Lemma conn_codes W (f : Z -> Z) (zs zs' : list Z) F idx : map f zs = zs' -> conn n (fun z => W (f z)) zs F idx == conn n W zs' F idx.
Proof.
  intros <-. unfold conn. rewrite map_length. apply nsum_ext. intros j Hj. apply nsum_ext. intros d _.
  rewrite (nth_indep (map f zs) 0%Z (f 0%Z)) by (rewrite map_length; exact Hj). rewrite map_nth. reflexivity.
Qed.

Lemma raise_covariant (i j : list Z) T k idx : valid_cfg i -> valid_cfg j -> length i = length j -> (k < n)%nat -> in_range n (length i) idx ->
  covariant_of n x G j (converted n g gi i j T) k idx == converted n g gi i j (covariant_of n x G i T k) idx.
Proof.
  intros Vi Vj Hl Hk [Li Ri]. set (zs := map code (combine i j)).
  assert (Hz : forall z, In z zs -> exists s t, (s = 1 \/ s = -1)%Z /\ (t = 1 \/ t = -1)%Z /\ z = code (s, t)).
  { intros z Hz. unfold zs in Hz. apply in_map_iff in Hz as ([s t] & <- & H). exists s, t. unfold valid_cfg in Vi, Vj. rewrite Forall_forall in Vi, Vj.
    split; [apply Vi; eapply in_combine_l, H|]. split; [apply Vj; eapply in_combine_r, H|reflexivity]. }
  assert (Lz : length zs = length i) by (unfold zs; rewrite map_length, combine_length; lia).
  assert (Eo : map code_old zs = i /\ map code_new zs = j /\ map code_matrix zs = map (fun st => conv g gi (fst st) (snd st)) (combine i j)).
  { unfold zs. clear - Vi Vj Hl. revert j Vj Hl. induction i as [|s i IH]; intros [|t j] Vj Hl; try discriminate Hl; [repeat split|].
    inversion Vi as [|? ? Hs Vi']; subst. inversion Vj as [|? ? Ht Vj']; subst. destruct (IH Vi' j Vj' ltac:(cbn in Hl; congruence)) as (E1 & E2 & E3).
    destruct (code_spec s t Hs Ht) as [C1 C2]. cbn [combine map]. rewrite E1, E2, E3. unfold code_matrix. rewrite C1, C2. repeat split. }
  destruct Eo as (E1 & E2 & E3). unfold converted. rewrite <- E3. rewrite (covariant_conn n) by reflexivity.
  rewrite <- (conn_codes (wz G k) code_new zs j _ idx E2).
  rewrite (frame_change n x k code_matrix (fun z => wz G k (code_old z)) (fun z => wz G k (code_new z)) zs
    (fun z i0 p Hz' => code_frame k z i0 p (Hz z Hz') Hk) T (fun ks => kdiff (x k) (T ks)) idx ltac:(congruence) Ri ltac:(reflexivity)).
  apply act_ext; [rewrite map_length; congruence|exact Ri|]. intros ks _ _. rewrite (covariant_conn n) by reflexivity.
  rewrite (conn_codes (wz G k) code_old zs i _ ks E1). reflexivity.
Qed.
End Raise.
