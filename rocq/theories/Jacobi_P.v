(** The derivative of a determinant. *)
From Coq Require Import Permutation.
From Verif Require Import Alg Alg_P Arr Arr_P Spec Act_P Curv_P SpecLine LineM Det_P SpecCurv.
Local Open Scope K_scope.

Section Jacobi.
Context {A : AlgOps} {L : AlgLaws A} {D : DiffLaws A}.
Add Ring KringJac : kring (setoid keq_equiv kring_ext).

(** The row r of f replaced by that of h. *)
Definition row_from (r : nat) (h f : nat -> nat -> K) : nat -> nat -> K := fun i j => if (i =? r)%nat then h i j else f i j.
Lemma row_in r h f j : row_from r h f r j = h r j.
Proof. unfold row_from. rewrite Nat.eqb_refl. reflexivity. Qed.
Lemma row_out r h f i j : i <> r -> row_from r h f i j = f i j.
Proof. unfold row_from. intros N. destruct (Nat.eqb_spec i r); [contradiction|reflexivity]. Qed.
Notation entries f s p := (kprod (map (fun ij => f (fst ij) (snd ij)) (combine s p))).

Lemma entries_row r h f : forall a s p, (r < s)%nat -> entries (row_from r h f) (seq s a) p == entries f (seq s a) p.
Proof.
  induction a as [|a IH]; intros s [|y p] H; cbn [seq combine map kprod fst snd]; try reflexivity.
  rewrite IH by lia. rewrite row_out by lia. reflexivity.
Qed.
Lemma kdiff_entries x f : forall a s p, length p = a ->
  kdiff x (entries f (seq s a) p) == lsum (seq s a) (fun r => entries (row_from r (fun i j => kdiff x (f i j)) f) (seq s a) p).
Proof.
  induction a as [|a IH]; intros s [|y p] H; cbn [length] in H; try lia; cbn [seq combine map kprod fst snd lsum].
  - apply kdiff_1.
  - rewrite kdiff_mul, IH by lia. rewrite entries_row by lia. rewrite row_in. apply kadd_proper; [reflexivity|].
    rewrite <- lsum_scale. apply lsum_ext. intros r Hr. apply in_seq in Hr. rewrite (row_out r _ f s) by lia. reflexivity.
Qed.
Lemma kdiff_determinant x n f : kdiff x (determinant n f) == nsum n (fun r => determinant n (row_from r (fun i j => kdiff x (f i j)) f)).
Proof.
  unfold determinant. rewrite kdiff_lsum.
  transitivity (lsum (tuples n n) (fun p => lsum (seq 0 n) (fun r => arrangement_sign p * entries (row_from r (fun i j => kdiff x (f i j)) f) (seq 0 n) p))).
  - apply lsum_ext. intros p Hp. apply in_tuples in Hp as [Lp _]. rewrite kdiff_mul, kdiff_entries by exact Lp. rewrite lsum_scale.
    assert (Z : kdiff x (arrangement_sign p) == k0).
    { clear - L D. induction p as [|y p IH]; cbn [arrangement_sign]; [apply kdiff_1|]. rewrite kdiff_mul, IH.
      assert (Z : forall l, kdiff x (kprod (map (order_sign y) l)) == k0).
      { induction l as [|z l IHl]; cbn [map kprod]; [apply kdiff_1|]. rewrite kdiff_mul, IHl.
        assert (Z : kdiff x (order_sign y z) == k0) by (unfold order_sign; destruct (Nat.compare y z); [apply kdiff_0|apply kdiff_1|rewrite kdiff_opp, kdiff_1; ring]).
        rewrite Z. ring. }
      rewrite Z. ring. }
    rewrite Z. ring.
  - rewrite lsum_swap. reflexivity.
Qed.

Lemma sign_dup p : ~ NoDup p -> arrangement_sign p == k0.
Proof.
  intros N. destruct (dup_or_not p) as [H|(x & l & P)]; [contradiction|].
  destruct (perm_signs 0 (fun _ _ => k0) _ _ P []) as (s & _ & _ & S). cbn [app] in S. rewrite S, sign_twice. ring.
Qed.
Lemma determinant_row n r h : (r < n)%nat -> determinant n (row_from r h kdelta) == h r r.
Proof.
  intros Hr. unfold determinant. rewrite (lsum_one _ (seq 0 n)).
  - rewrite sign_sorted.
    assert (E : forall a s, entries (row_from r h kdelta) (seq s a) (seq s a) == if ((s <=? r) && (r <? s + a))%nat%bool then h r r else k1).
    { induction a as [|a IH]; intros s; cbn [seq combine map kprod fst snd].
      - destruct (Nat.leb_spec s r), (Nat.ltb_spec r (s + 0)); cbn [andb]; try reflexivity; lia.
      - rewrite IH. unfold row_from, kdelta. rewrite Nat.eqb_refl. destruct (Nat.eqb_spec s r) as [->|N].
        + destruct (Nat.leb_spec (S r) r); [lia|]. rewrite Nat.leb_refl. destruct (Nat.ltb_spec r (r + S a)); [|lia]. cbn [andb]. ring.
        + destruct (Nat.leb_spec (S s) r), (Nat.leb_spec s r), (Nat.ltb_spec r (S s + a)), (Nat.ltb_spec r (s + S a)); cbn [andb]; try lia; ring. }
    rewrite E. destruct (Nat.leb_spec 0 r), (Nat.ltb_spec r (0 + n)); try lia. cbn [andb]. ring.
  - apply NoDup_tuples.
  - apply in_tuples. rewrite seq_length. split; [reflexivity|]. apply Forall_forall. intros x Hx. apply in_seq in Hx. lia.
  - intros p Hp Np. apply in_tuples in Hp as [Lp Rp].
    assert (E : forall a s q, length q = a -> (exists i, (i < a)%nat /\ (s + i)%nat <> r /\ nth i q 0%nat <> (s + i)%nat) ->
       entries (row_from r h kdelta) (seq s a) q == k0).
    { induction a as [|a IH]; intros s [|y q] Lq (i & Hi & Ni & Nq); cbn [length] in Lq; try lia. cbn [seq combine map kprod fst snd].
      destruct i as [|i].
      - rewrite Nat.add_0_r in Ni, Nq. cbn [nth] in Nq. rewrite row_out by exact Ni. unfold kdelta at 1. destruct (Nat.eqb_spec s y); [congruence|ring].
      - rewrite IH; [ring|lia|]. exists i. cbn [nth] in Nq. rewrite Nat.add_succ_r in Ni, Nq. cbn [Nat.add]. repeat split; [lia|exact Ni|exact Nq]. }
    destruct (existsb (fun i => negb (i =? r)%nat && negb (nth i p 0 =? i)%nat)%bool (seq 0 n)) eqn:X.
    + apply existsb_exists in X as (i & Hi & X). apply in_seq in Hi. apply andb_prop in X as [X1 X2]. apply negb_true_iff, Nat.eqb_neq in X1, X2.
      rewrite E; [ring|exact Lp|]. exists i. repeat split; [lia|exact X1|exact X2].
    + assert (F : forall i, (i < n)%nat -> i <> r -> nth i p 0%nat = i).
      { intros i Hi Ni. destruct (Nat.eqb_spec (nth i p 0%nat) i) as [e|N]; [exact e|]. exfalso. apply not_true_iff_false in X. apply X. apply existsb_exists. exists i.
        split; [apply in_seq; lia|]. apply andb_true_intro. split; apply negb_true_iff, Nat.eqb_neq; assumption. }
      rewrite sign_dup; [ring|]. intros Nd. apply Np. apply (nth_ext _ _ 0%nat 0%nat); [rewrite seq_length; exact Lp|]. intros i Hi. rewrite seq_nth by lia. cbn [Nat.add].
      destruct (Nat.eq_dec i r) as [->|Ni]; [|apply F; lia].
      destruct (Nat.eq_dec (nth r p 0%nat) r) as [e|N]; [exact e|].
      assert (Hk : (nth r p 0 < n)%nat) by (apply (proj1 (Forall_forall _ _) Rp), nth_In; lia).
      symmetry. apply (proj1 (NoDup_nth p 0%nat) Nd); [lia|lia|]. rewrite (F (nth r p 0%nat)) by (try lia; exact N). reflexivity.
Qed.

(** Jacobi's formula *)
Theorem jacobi x n f fi : inverse_fun n f fi ->
  kdiff x (determinant n f) == determinant n f * nsum n (fun r => nsum n (fun l => kdiff x (f r l) * fi l r)).
Proof.
  intros [_ Hi]. rewrite kdiff_determinant, <- nsum_scale. apply nsum_ext. intros r Hr.
  set (h := fun i k => nsum n (fun l => kdiff x (f i l) * fi l k)).
  rewrite (determinant_ext n _ (mat_mul n (row_from r h kdelta) f)).
  - rewrite determinant_mul, determinant_row by exact Hr. unfold h. ring.
  - intros i j Hin Hj. unfold mat_mul, row_from. destruct (Nat.eqb_spec i r) as [->|N].
    + unfold h. transitivity (nsum n (fun l => kdiff x (f r l) * kdelta l j)); [symmetry; apply (nsum_delta_r n j (fun l => kdiff x (f r l))); exact Hj|].
      transitivity (nsum n (fun l => nsum n (fun k => kdiff x (f r l) * (fi l k * f k j)))).
      * apply nsum_ext. intros l Hl. rewrite nsum_scale, Hi by assumption. reflexivity.
      * rewrite nsum_swap. apply nsum_ext. intros k Hk. rewrite <- nsum_scale_r. apply nsum_ext. intros l _. ring.
    + rewrite (nsum_delta_l n i (fun k => f k j)) by exact Hin. reflexivity.
Qed.
End Jacobi.
