(** Contracted Christoffel symbols, divergences and curls. *)
From Verif Require Import Alg Alg_P Arr Arr_P Spec SpecCurv SpecCov Act_P Curv_P CovId_P CurvCov_P RaiseCov_P SpecLine LineM Det_P Jacobi_P SpecVolume.
Local Open Scope K_scope.

Section Voss.
Context {A : AlgOps} {L : AlgLaws A} {D : DiffLaws A}.
Add Ring KringVoss : kring (setoid keq_equiv kring_ext).
Variables (n : nat) (x : nat -> string) (g gi : nat -> nat -> K).
Hypothesis Hs : symmetric_fun n g.
Hypothesis Hinv : inverse_fun n g gi.
Notation G := (christoffel_of n x g gi).
Notation v := (determinant n g).

Lemma contracted i : (i < n)%nat -> kdiff (x i) v == knat 2 * v * nsum n (fun k => G k i k).
Proof.
  intros Hi. rewrite (jacobi (x i) n g gi Hinv).
  assert (E : nsum n (fun r => nsum n (fun l => kdiff (x i) (g r l) * gi l r)) == nsum n (fun k => G k i k) + nsum n (fun k => G k i k)).
  { transitivity (nsum n (fun r => nsum n (fun l => gi l r * Curv_P.Gl x g r i l)) + nsum n (fun r => nsum n (fun l => gi r l * Curv_P.Gl x g l i r))).
    - rewrite <- nsum_add. apply nsum_ext. intros r Hr. rewrite <- nsum_add. apply nsum_ext. intros l Hl.
      rewrite (diff_g n x g Hs i r l Hr Hl Hi), (gi_sym n g gi Hs Hinv l r Hl Hr). ring.
    - rewrite nsum_swap. apply kadd_proper; apply nsum_ext; intros k _; symmetry; apply G_Gl. }
  rewrite E. cbn [knat]. ring.
Qed.
Lemma contracted' i : (i < n)%nat -> kdiff (x i) v == knat 2 * v * nsum n (fun k => G k k i).
Proof.
  intros Hi. rewrite contracted by exact Hi. apply kmul_proper; [reflexivity|]. apply nsum_ext. intros k Hk. apply (G_sym n x g gi Hs); assumption.
Qed.

Lemma nsum_S r (f : nat -> K) : nsum (S r) f == f 0%nat + nsum r (fun j => f (S j)).
Proof. unfold nsum. cbn [seq lsum]. rewrite <- seq_shift, lsum_map. reflexivity. Qed.
Lemma nsum_none (f : nat -> K) : nsum 0 f == k0.
Proof. reflexivity. Qed.
Lemma repeat_nth {X} (y : X) r j d : (j < r)%nat -> nth j (repeat y r) d = y.
Proof. revert j. induction r as [|r IH]; intros [|j] H; cbn; try lia; [reflexivity|apply IH; lia]. Qed.
Lemma replaced_nth j d idx : (j < length idx)%nat -> nth j (replaced j d idx) 0%nat = d.
Proof. intros H. unfold replaced. rewrite app_nth2 by (rewrite firstn_length; lia). rewrite firstn_length. replace (j - Nat.min j (length idx))%nat with 0%nat by lia. reflexivity. Qed.
Lemma replaced_twice j d e idx : (j < length idx)%nat -> replaced j d (replaced j e idx) = replaced j d idx.
Proof.
  intros H. unfold replaced. assert (L1 : length (firstn j idx) = j) by (rewrite firstn_length; lia). f_equal.
  - rewrite firstn_app, L1, Nat.sub_diag, firstn_O, app_nil_r. rewrite <- L1 at 1. rewrite firstn_all2 by lia. reflexivity.
  - f_equal. rewrite skipn_app, L1. rewrite (skipn_all2 (firstn j idx)) by lia. replace (S j - j)%nat with 1%nat by lia. reflexivity.
Qed.
Lemma replaced_length j d idx : (j < length idx)%nat -> length (replaced j d idx) = length idx.
Proof. intros H. unfold replaced. rewrite app_length. cbn [length]. rewrite firstn_length, skipn_length. lia. Qed.
Lemma replaced_range j d idx : (d < n)%nat -> Forall (fun i => i < n)%nat idx -> Forall (fun i => i < n)%nat (replaced j d idx).
Proof.
  intros H F. unfold replaced. apply Forall_app. split.
  - rewrite <- (firstn_skipn j idx) in F. apply Forall_app in F as [F _]. exact F.
  - constructor; [exact H|]. rewrite <- (firstn_skipn (S j) idx) in F. apply Forall_app in F as [_ F]. exact F.
Qed.
Lemma exchanged_replaced j k d idx : (j < length idx)%nat -> exchanged (S j) (k :: replaced j d idx) = d :: replaced j k idx.
Proof.
  intros H. unfold exchanged. cbn [nth]. rewrite replaced_nth by exact H.
  change (replaced (S j) k (k :: replaced j d idx)) with (k :: replaced j k (replaced j d idx)). rewrite replaced_twice by exact H. reflexivity.
Qed.

(** The divergence of an antisymmetric tensor, vectors included *)
Theorem voss_weyl r T idx : antisymmetric_first n (S r) T -> in_range n r idx ->
  knat 2 * v * divergence_of n x G gi (repeat 1%Z (S r)) T 0 idx == weighted_divergence n x v T idx.
Proof.
  intros At [Li Ri]. unfold divergence_of. cbn [repeat nth Z.eqb Pos.eqb].
  assert (E : nsum n (fun k => covariant_of n x G (1%Z :: repeat 1%Z r) T k (inserted 0 k idx)) ==
    nsum n (fun a => kdiff (x a) (T (a :: idx))) + nsum n (fun a => T (a :: idx) * nsum n (fun k => G k k a))).
  { transitivity (nsum n (fun k => kdiff (x k) (T (k :: idx)) + (nsum n (fun d => G k k d * T (d :: idx)) +
      nsum r (fun j => nsum n (fun d => G (nth j idx 0%nat) k d * T (k :: replaced j d idx)))))).
    - apply nsum_ext. intros k Hk. unfold covariant_of, inserted. cbn [firstn skipn app length]. rewrite repeat_length, nsum_S.
      apply kadd_proper; [reflexivity|]. apply kadd_proper; [reflexivity|]. apply nsum_ext. intros j Hj. cbn [nth].
      replace (nth j (repeat 1%Z r) 0%Z) with 1%Z by (symmetry; apply (repeat_nth 1%Z r j 0%Z Hj)). reflexivity.
    - rewrite nsum_add. apply kadd_proper; [reflexivity|]. rewrite nsum_add.
      assert (Z : nsum n (fun k => nsum r (fun j => nsum n (fun d => G (nth j idx 0%nat) k d * T (k :: replaced j d idx)))) == k0).
      { rewrite nsum_swap. apply nsum_zero'. intros j Hj. apply half_zero.
        transitivity (nsum n (fun d => nsum n (fun k => G (nth j idx 0%nat) k d * T (k :: replaced j d idx)))); [apply nsum_swap|]. rewrite <- nsum_opp. apply nsum_ext. intros d Hd.
        rewrite <- nsum_opp. apply nsum_ext. intros k Hk.
        rewrite (G_sym n x g gi Hs _ k d Hk Hd).
        assert (E : T (k :: replaced j d idx) == - T (d :: replaced j k idx)).
        { rewrite <- (exchanged_replaced j d k idx) by lia. apply At; [lia|lia|]. split; [cbn [length]; rewrite replaced_length by lia; lia|].
          constructor; [exact Hd|]. apply replaced_range; assumption. }
        rewrite E. ring. }
      rewrite Z. transitivity (nsum n (fun k => nsum n (fun d => G k k d * T (d :: idx)))); [ring|]. rewrite nsum_swap. apply nsum_ext. intros d _. rewrite nsum_scale_r. ring. }
  rewrite E. unfold weighted_divergence. rewrite <- nsum_add, <- nsum_scale. apply nsum_ext. intros a Ha. rewrite (contracted' a Ha). ring.
Qed.

(** The divergence of a covector *)
Theorem voss_weyl_lower T : knat 2 * v * divergence_of n x G gi [-1]%Z T 0 [] == weighted_divergence n x v (raised_vector n gi T) [].
Proof.
  assert (At : antisymmetric_first n 1 (raised_vector n gi T)) by (intros j idx H1 H2; lia).
  rewrite <- (voss_weyl 0 (raised_vector n gi T) [] At (conj eq_refl (Forall_nil _))). apply kmul_proper; [reflexivity|].
  unfold divergence_of. cbn [nth Z.eqb Pos.eqb repeat]. apply nsum_ext. intros k Hk. unfold inserted. cbn [firstn skipn app].
  assert (Ea : forall (F : list nat -> K) a, (a < n)%nat -> converted n g gi [-1]%Z [1]%Z F [a] == nsum n (fun b => gi a b * F [b])).
  { intros F a Ha. unfold converted. cbn [combine map fst snd]. rewrite act_cons. unfold conv. cbn [Z.eqb Pos.eqb]. apply nsum_ext. intros b _. rewrite act_nil. reflexivity. }
  rewrite <- (Ea (covariant_of n x G [-1]%Z T k) k Hk).
  rewrite <- (raise_covariant n x g gi Hs Hinv [-1]%Z [1]%Z T k [k]); [|constructor; [auto|constructor]|constructor; [auto|constructor]|reflexivity|exact Hk|split; [reflexivity|repeat constructor; exact Hk]].
  unfold covariant_of. cbn [length nth Z.eqb Pos.eqb]. apply kadd_proper.
  - apply kdiff_proper. rewrite Ea by exact Hk. reflexivity.
  - rewrite !nsum_S. cbn [nth Z.eqb Pos.eqb]. apply kadd_proper; [|reflexivity]. apply nsum_ext. intros d Hd. unfold replaced. cbn [firstn skipn app]. rewrite Ea by exact Hd. reflexivity.
Qed.

(** Curls *)
Lemma curl T p q : (p < n)%nat -> (q < n)%nat ->
  covariant_of n x G [-1]%Z T p [q] - covariant_of n x G [-1]%Z T q [p] == kdiff (x p) (T [q]) - kdiff (x q) (T [p]).
Proof.
  intros Hp Hq. unfold covariant_of. cbn [length]. rewrite !nsum_S, !nsum_none. cbn [nth Z.eqb Pos.eqb]. unfold replaced. cbn [firstn skipn app].
  rewrite (nsum_ext n (fun d => G d p q * T [d]) (fun d => G d q p * T [d])) by (intros d _; rewrite (G_sym n x g gi Hs d p q Hp Hq); reflexivity). ring.
Qed.
Lemma cyclic T p q s : (p < n)%nat -> (q < n)%nat -> (s < n)%nat -> (forall a b, (a < n)%nat -> (b < n)%nat -> T [b; a] == - T [a; b]) ->
  covariant_of n x G [-1; -1]%Z T p [q; s] + covariant_of n x G [-1; -1]%Z T q [s; p] + covariant_of n x G [-1; -1]%Z T s [p; q] ==
  kdiff (x p) (T [q; s]) + kdiff (x q) (T [s; p]) + kdiff (x s) (T [p; q]).
Proof.
  intros Hp Hq Hsn At. unfold covariant_of. cbn [length]. rewrite !nsum_S, !nsum_none. cbn [nth Z.eqb Pos.eqb]. unfold replaced. cbn [firstn skipn app].
  assert (E : forall a b e, (a < n)%nat -> (b < n)%nat -> (e < n)%nat -> nsum n (fun d => G d a b * T [d; e]) == - nsum n (fun d => G d b a * T [e; d])).
  { intros a b e Ha Hb He. rewrite <- nsum_opp. apply nsum_ext. intros d Hd. rewrite (G_sym n x g gi Hs d a b Ha Hb), (At e d He Hd). ring. }
  rewrite (E p q s), (E q s p), (E s p q) by assumption. ring.
Qed.
End Voss.
