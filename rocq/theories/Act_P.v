(** Algebra of one matrix per index. *)
From Verif Require Import Alg Alg_P Arr Arr_P Spec.
Local Open Scope K_scope.

Section ActP.
Context {A : AlgOps} {L : AlgLaws A}.
Add Ring Kring : kring (setoid keq_equiv kring_ext).

(** The same sum nested, allowing fewer matrices than indices. *)
Fixpoint actp (n : nat) (Ms : list (nat -> nat -> K)) (f : list nat -> K) (idx : list nat) : K :=
  match Ms, idx with
  | M :: Ms', i :: idx' => nsum n (fun k => M i k * actp n Ms' (fun ks => f (k :: ks)) idx')
  | _, _ => f idx
  end.

Lemma lsum_tuples_S n r (f : list nat -> K) :
  lsum (tuples n (S r)) f == nsum n (fun i => lsum (tuples n r) (fun ks => f (i :: ks))).
Proof.
  cbn [tuples]. rewrite lsum_flat_map. unfold nsum. apply lsum_ext. intros i _.
  rewrite lsum_map. reflexivity.
Qed.

Lemma act_nil n f : act n [] f [] == f [].
Proof. unfold act; cbn. ring. Qed.

Lemma act_cons n M Ms f i idx :
  act n (M :: Ms) f (i :: idx) == nsum n (fun k => M i k * act n Ms (fun ks => f (k :: ks)) idx).
Proof.
  unfold act. cbn [length]. rewrite lsum_tuples_S. apply nsum_ext. intros k _.
  rewrite <- lsum_scale. apply lsum_ext. intros ks _. cbn. ring.
Qed.

Lemma act_actp n Ms f idx : length Ms = length idx -> act n Ms f idx == actp n Ms f idx.
Proof.
  revert f idx; induction Ms as [|M Ms IH]; intros f [|i idx] H; cbn in H; try discriminate.
  - apply act_nil.
  - rewrite act_cons. cbn [actp]. apply nsum_ext. intros k _. rewrite IH by lia. reflexivity.
Qed.

Definition rng (n : nat) (idx : list nat) : Prop := Forall (fun i => (i < n)%nat) idx.

Lemma actp_ext n Ms f g idx :
  rng n idx -> (forall ks, length ks = length idx -> rng n ks -> f ks == g ks) ->
  actp n Ms f idx == actp n Ms g idx.
Proof.
  revert f g idx; induction Ms as [|M Ms IH]; intros f g [|i idx] Hr H; cbn [actp]; try (apply H; [reflexivity|exact Hr]).
  inversion Hr as [|i' l Hi Hl E]; subst.
  apply nsum_ext. intros k Hk. rewrite (IH (fun ks => f (k :: ks)) (fun ks => g (k :: ks)) idx); [reflexivity|exact Hl|].
  intros ks Hks Hrk. apply H; [cbn; congruence|constructor; assumption].
Qed.

Lemma act_ext n Ms f g idx :
  length Ms = length idx -> rng n idx -> (forall ks, length ks = length idx -> rng n ks -> f ks == g ks) ->
  act n Ms f idx == act n Ms g idx.
Proof. intros Hl Hr H. rewrite !act_actp by exact Hl. apply actp_ext; assumption. Qed.

Definition meq (n : nat) (M N : nat -> nat -> K) : Prop :=
  forall i k, (i < n)%nat -> (k < n)%nat -> M i k == N i k.

Lemma act_mext n Ms Ns f idx :
  length Ms = length idx -> rng n idx -> Forall2 (meq n) Ms Ns -> act n Ms f idx == act n Ns f idx.
Proof.
  intros Hl Hr H. revert f idx Hl Hr. induction H as [|M N Ms Ns HM HH IH]; intros f [|i idx] Hl Hr; cbn in Hl; try discriminate.
  - reflexivity.
  - inversion Hr as [|i' l Hi Hl' E]; subst. rewrite !act_cons. apply nsum_ext. intros k Hk.
    rewrite (HM i k Hi Hk). rewrite IH by (lia || assumption). reflexivity.
Qed.

Lemma act_scale n Ms f c idx :
  length Ms = length idx -> act n Ms (fun ks => c * f ks) idx == c * act n Ms f idx.
Proof.
  intros _. unfold act. rewrite <- lsum_scale. apply lsum_ext. intros ks _. ring.
Qed.

Lemma act_nsum n m Ms (f : nat -> list nat -> K) idx :
  act n Ms (fun ks => nsum m (fun k => f k ks)) idx == nsum m (fun k => act n Ms (f k) idx).
Proof.
  unfold act, nsum. rewrite lsum_swap. apply lsum_ext. intros ks _. rewrite <- lsum_scale. reflexivity.
Qed.

Definition mcomp (n : nat) (M N : nat -> nat -> K) : nat -> nat -> K :=
  fun i j => nsum n (fun k => M i k * N k j).

(** Two rounds of matrices are one round of products. *)
Lemma act_comp n Ms Ns f idx :
  length Ms = length idx -> length Ns = length idx ->
  act n Ms (act n Ns f) idx == act n (map (fun mn => mcomp n (fst mn) (snd mn)) (combine Ms Ns)) f idx.
Proof.
  revert Ns f idx; induction Ms as [|M Ms IH]; intros [|N Ns] f [|i idx] H1 H2; cbn in H1, H2; try discriminate.
  - cbn [combine map]. rewrite !act_nil. reflexivity.
  - cbn [combine map fst snd]. rewrite !act_cons.
    transitivity (nsum n (fun k => nsum n (fun l => M i k * N k l *
        act n (map (fun mn => mcomp n (fst mn) (snd mn)) (combine Ms Ns)) (fun ks => f (l :: ks)) idx))).
    + apply nsum_ext. intros k Hk.
      transitivity (M i k * act n Ms (fun ks => nsum n (fun l => N k l * act n Ns (fun ls => f (l :: ls)) ks)) idx).
      { apply kmul_proper; [reflexivity|].
        unfold act at 1 3. apply lsum_ext. intros ks _. apply kmul_proper; [reflexivity|]. apply act_cons. }
      rewrite act_nsum. rewrite <- nsum_scale. apply nsum_ext. intros l Hl.
      rewrite act_scale by lia. rewrite IH by lia. ring.
    + unfold nsum at 1. unfold nsum at 1. rewrite lsum_swap.
      apply lsum_ext. intros l _. unfold mcomp.
      rewrite <- nsum_scale_r. apply lsum_ext. intros k _. reflexivity.
Qed.

Lemma act_id n Ms f idx :
  length Ms = length idx -> rng n idx -> Forall (fun M => meq n M kdelta) Ms -> act n Ms f idx == f idx.
Proof.
  revert f idx; induction Ms as [|M Ms IH]; intros f [|i idx] Hl Hr H; cbn in Hl; try discriminate.
  - apply act_nil.
  - inversion Hr as [|i' l Hi Hl' E]; subst. inversion H as [|M' Ms' HM HMs E]; subst.
    rewrite act_cons. rewrite (nsum_one n i); [|exact Hi|].
    + rewrite (HM i i Hi Hi), kdelta_same. rewrite IH by (lia || assumption). ring.
    + intros k Hk Hne. rewrite (HM i k Hi Hk). rewrite kdelta_diff by congruence. ring.
Qed.

(** Adding one more matrix at the first untouched index. *)
Lemma actp_snoc n Ms M f idx :
  (length Ms < length idx)%nat ->
  actp n (Ms ++ [M]) f idx ==
  nsum n (fun k => M (nth (length Ms) idx 0%nat) k * actp n Ms f (set_nth (length Ms) k idx)).
Proof.
  revert f idx; induction Ms as [|N Ms IH]; intros f [|i idx] H; cbn in H; try lia.
  - cbn. reflexivity.
  - cbn [app actp length nth set_nth].
    transitivity (nsum n (fun k => nsum n (fun l => N i k * (M (nth (length Ms) idx 0%nat) l *
         actp n Ms (fun ks => f (k :: ks)) (set_nth (length Ms) l idx))))).
    + apply nsum_ext. intros k _. rewrite IH by lia. rewrite nsum_scale. reflexivity.
    + rewrite nsum_swap. apply nsum_ext. intros l _.
      rewrite <- nsum_scale. apply nsum_ext. intros k _. cbn. ring.
Qed.

Lemma actp_nil n f idx : actp n [] f idx = f idx.
Proof. reflexivity. Qed.

End ActP.
