(** The determinant is multiplicative. *)
From Coq Require Import Permutation.
From Verif Require Import Alg Alg_P Arr Arr_P Spec Act_P Curv_P SpecLine LineM.
Local Open Scope K_scope.

Section Det.
Context {A : AlgOps} {L : AlgLaws A}.
Add Ring KringDet : kring (setoid keq_equiv kring_ext).

Lemma order_sign_refl a : order_sign a a = k0.
Proof. unfold order_sign. rewrite Nat.compare_refl. reflexivity. Qed.
Lemma order_sign_anti a b : order_sign a b == - order_sign b a.
Proof. unfold order_sign. rewrite (Nat.compare_antisym b a). destruct (Nat.compare b a); cbn [CompOpp]; ring. Qed.
Lemma kprod_perm l l' : Permutation l l' -> kprod l == kprod l'.
Proof. induction 1; cbn [kprod]; [reflexivity|rewrite IHPermutation; reflexivity|ring|etransitivity; eassumption]. Qed.
Lemma kprod_app l l' : kprod (l ++ l') == kprod l * kprod l'.
Proof. induction l; cbn [kprod app]; [ring|rewrite IHl; ring]. Qed.
Lemma kprod_zero l : In k0 l -> kprod l == k0.
Proof. induction l as [|x l IH]; [intros []|]. intros [->|H]; cbn [kprod]; [ring|rewrite IH by exact H; ring]. Qed.

(** two neighbours exchanged *)
Fixpoint swap (q : nat) (l : list nat) : list nat :=
  match q, l with
  | O, a :: b :: l' => b :: a :: l'
  | S q', x :: l' => x :: swap q' l'
  | _, _ => l
  end.
Lemma swap_perm q : forall l, Permutation (swap q l) l.
Proof.
  induction q as [|q IH]; intros [|a l]; cbn [swap]; try reflexivity; [|constructor; apply IH].
  destruct l; [reflexivity|]. constructor.
Qed.
Lemma swap_at p a b l : swap (length p) (p ++ a :: b :: l) = p ++ b :: a :: l.
Proof. induction p as [|x p IH]; cbn [length app swap]; [reflexivity|]. rewrite IH. reflexivity. Qed.

Lemma sign_swap q : forall l, (S q < length l)%nat -> arrangement_sign (swap q l) == - arrangement_sign l.
Proof.
  induction q as [|q IH]; intros [|a l] H; cbn [length] in H; try lia.
  - destruct l as [|b l]; cbn [length] in H; [lia|]. cbn [swap arrangement_sign map kprod]. rewrite (order_sign_anti b a). ring.
  - cbn [swap arrangement_sign]. rewrite IH by lia. rewrite (kprod_perm (map (order_sign a) (swap q l)) (map (order_sign a) l)); [ring|]. apply Permutation_map, swap_perm.
Qed.
Lemma sum_swap n q : forall r (F : list nat -> K), (S q < r)%nat -> lsum (tuples n r) (fun f => F (swap q f)) == lsum (tuples n r) F.
Proof.
  induction q as [|q IH]; intros [|r] F H; try lia.
  - destruct r as [|r]; [lia|]. rewrite !lsum_tuples_S.
    rewrite (nsum_ext n _ (fun i => nsum n (fun j => lsum (tuples n r) (fun ks => F (j :: i :: ks))))) by (intros i _; rewrite lsum_tuples_S; reflexivity).
    rewrite (nsum_ext n (fun i => lsum (tuples n (S r)) _) (fun i => nsum n (fun j => lsum (tuples n r) (fun ks => F (i :: j :: ks))))) by (intros i _; rewrite lsum_tuples_S; reflexivity).
    apply nsum_swap.
  - rewrite !lsum_tuples_S. apply nsum_ext. intros i _. apply (IH r (fun ks => F (i :: ks))). lia.
Qed.

(** the alternating sum with arbitrary rows k *)
Definition rows_det (n : nat) (f : nat -> nat -> K) (k : list nat) : K :=
  lsum (tuples n (length k)) (fun p => arrangement_sign p * kprod (map (fun ij => f (fst ij) (snd ij)) (combine k p))).
Lemma entries_swap (f : nat -> nat -> K) q : forall k p, length k = length p -> (S q < length p)%nat ->
  kprod (map (fun ij => f (fst ij) (snd ij)) (combine (swap q k) (swap q p))) == kprod (map (fun ij => f (fst ij) (snd ij)) (combine k p)).
Proof.
  induction q as [|q IH]; intros [|a k] [|x p] E H; cbn [length] in E, H; try lia.
  - destruct k as [|b k], p as [|y p]; cbn [length] in E, H; try lia. cbn [swap combine map kprod fst snd]. ring.
  - cbn [swap combine map kprod fst snd]. rewrite IH by lia. reflexivity.
Qed.
Lemma rows_swap n f k q : (S q < length k)%nat -> rows_det n f (swap q k) == - rows_det n f k.
Proof.
  intros H. unfold rows_det. rewrite (Permutation_length (swap_perm q k)).
  rewrite <- (sum_swap n q (length k) _ H). rewrite <- lsum_opp. apply lsum_ext. intros p Hp. apply in_tuples in Hp as [Lp _].
  rewrite entries_swap by lia. rewrite sign_swap by lia. ring.
Qed.

Lemma perm_signs n f k k' : Permutation k k' -> forall p, exists s, s * s == k1 /\
  rows_det n f (p ++ k) == s * rows_det n f (p ++ k') /\ arrangement_sign (p ++ k) == s * arrangement_sign (p ++ k').
Proof.
  induction 1 as [|x l l' H IH|x y l|l l' l'' H1 IH1 H2 IH2]; intros p.
  - exists k1. repeat split; ring.
  - destruct (IH (p ++ [x])) as (s & S1 & S2 & S3). exists s. rewrite <- !app_assoc in *. cbn [app] in *. auto.
  - exists (- k1). split; [ring|]. assert (Hl : (S (length p) < length (p ++ x :: y :: l))%nat) by (rewrite app_length; cbn [length]; lia).
    split; rewrite <- (swap_at p x y l); [rewrite rows_swap by exact Hl|rewrite sign_swap by exact Hl]; ring.
  - destruct (IH1 p) as (s & S1 & S2 & S3), (IH2 p) as (t & T1 & T2 & T3). exists (s * t). split; [transitivity ((s * s) * (t * t)); [ring|rewrite S1, T1; ring]|].
    split; [rewrite S2, T2; ring|rewrite S3, T3; ring].
Qed.
Lemma sign_twice x l : arrangement_sign (x :: x :: l) == k0.
Proof. cbn [arrangement_sign map kprod]. rewrite order_sign_refl. ring. Qed.
Lemma rows_twice n f x l : rows_det n f (x :: x :: l) == k0.
Proof. apply half_zero. apply (rows_swap n f (x :: x :: l) 0). cbn [length]. lia. Qed.
Lemma dup_or_not (k : list nat) : NoDup k \/ exists x l, Permutation k (x :: x :: l).
Proof.
  induction k as [|x k IH]; [left; constructor|]. destruct (in_dec Nat.eq_dec x k) as [H|H].
  - right. apply in_split in H as (a & b & ->). exists x, (a ++ b). constructor. symmetry. apply Permutation_middle.
  - destruct IH as [N|(y & l & P)]; [left; constructor; assumption|]. right. exists y, (x :: l).
    rewrite P. rewrite perm_swap. constructor. apply perm_swap.
Qed.
Lemma sign_sorted a : forall s, arrangement_sign (seq s a) == k1.
Proof.
  induction a as [|a IH]; intros s; cbn [seq arrangement_sign]; [reflexivity|]. rewrite IH.
  assert (E : forall l, (forall y, In y l -> (s < y)%nat) -> kprod (map (order_sign s) l) == k1).
  { induction l as [|y l IHl]; intros Hl; cbn [map kprod]; [reflexivity|]. rewrite IHl by (intros; apply Hl; right; assumption).
    unfold order_sign. rewrite (proj2 (Nat.compare_lt_iff s y)) by (apply Hl; left; reflexivity). ring. }
  rewrite E; [ring|]. intros y Hy. apply in_seq in Hy. lia.
Qed.
Lemma rows_det_det n f : rows_det n f (seq 0 n) = determinant n f.
Proof. unfold rows_det, determinant. rewrite seq_length. reflexivity. Qed.
Lemma arranged n (k : list nat) : NoDup k -> length k = n -> Forall (fun i => i < n)%nat k -> Permutation k (seq 0 n).
Proof.
  intros N Lk R. apply NoDup_Permutation_bis; [exact N|rewrite seq_length; lia|]. intros x Hx. apply in_seq. split; [lia|]. apply (proj1 (Forall_forall _ _) R), Hx.
Qed.
Theorem rows_any n f k : length k = n -> Forall (fun i => i < n)%nat k -> rows_det n f k == arrangement_sign k * determinant n f.
Proof.
  intros Lk R. destruct (dup_or_not k) as [N|(x & l & P)].
  - destruct (perm_signs n f _ _ (arranged n k N Lk R) []) as (s & _ & S1 & S2). cbn [app] in S1, S2.
    rewrite S1, S2, sign_sorted, rows_det_det. ring.
  - destruct (perm_signs n f _ _ P []) as (s & _ & S1 & S2). cbn [app] in S1, S2. rewrite S1, S2, sign_twice, rows_twice. ring.
Qed.

(** a product of sums *)
Lemma kprod_ext {X} (l : list X) f g : (forall x, In x l -> f x == g x) -> kprod (map f l) == kprod (map g l).
Proof. induction l as [|x l IH]; intros H; cbn [map kprod]; [reflexivity|]. rewrite (H x) by (left; reflexivity). rewrite IH by (intros; apply H; right; assumption). reflexivity. Qed.

Lemma split_entries (f g : nat -> nat -> K) : forall rows p k, length rows = length p -> length rows = length k ->
  kprod (map (fun ik => f (fst (fst ik)) (snd ik) * g (snd ik) (snd (fst ik))) (combine (combine rows p) k)) ==
  kprod (map (fun ij => f (fst ij) (snd ij)) (combine rows k)) * kprod (map (fun ij => g (fst ij) (snd ij)) (combine k p)).
Proof.
  induction rows as [|i rows IH]; intros [|x p] [|y k] H H'; cbn [length] in H, H'; try lia; cbn [combine map kprod fst snd]; [ring|].
  rewrite IH by lia. ring.
Qed.
Lemma prod_sums_pairs {X} n (l : list X) (F : X -> nat -> K) :
  kprod (map (fun i => nsum n (F i)) l) == lsum (tuples n (length l)) (fun k => kprod (map (fun ik => F (fst ik) (snd ik)) (combine l k))).
Proof.
  induction l as [|i l IH]; cbn [length map kprod]; [cbn; ring|]. rewrite lsum_tuples_S, IH.
  rewrite <- nsum_scale_r. apply nsum_ext. intros k _. cbn [combine map kprod fst snd]. rewrite lsum_scale. reflexivity.
Qed.

Theorem determinant_mul n f g : determinant n (mat_mul n f g) == determinant n f * determinant n g.
Proof.
  unfold determinant at 1. unfold mat_mul.
  transitivity (lsum (tuples n n) (fun k => kprod (map (fun ij => f (fst ij) (snd ij)) (combine (seq 0 n) k)) * rows_det n g k)).
  - transitivity (lsum (tuples n n) (fun p => lsum (tuples n n) (fun k => arrangement_sign p *
      (kprod (map (fun ij => f (fst ij) (snd ij)) (combine (seq 0 n) k)) * kprod (map (fun ij => g (fst ij) (snd ij)) (combine k p)))))).
    + apply lsum_ext. intros p Hp. apply in_tuples in Hp as [Lp _].
      rewrite (prod_sums_pairs n (combine (seq 0 n) p) (fun ij k => f (fst ij) k * g k (snd ij))).
      rewrite combine_length, seq_length, Lp, Nat.min_id. rewrite <- lsum_scale. apply lsum_ext. intros k Hk. apply in_tuples in Hk as [Lk _].
      rewrite split_entries by (rewrite seq_length; lia). reflexivity.
    + rewrite lsum_swap. apply lsum_ext. intros k Hk. apply in_tuples in Hk as [Lk _]. unfold rows_det. rewrite Lk. rewrite <- lsum_scale.
      apply lsum_ext. intros p _. ring.
  - unfold determinant at 1. rewrite <- lsum_scale_r. apply lsum_ext. intros k Hk. apply in_tuples in Hk as [Lk Rk]. rewrite rows_any by assumption. ring.
Qed.
Lemma determinant_ext n f g : (forall i j, (i < n)%nat -> (j < n)%nat -> f i j == g i j) -> determinant n f == determinant n g.
Proof.
  intros H. unfold determinant. apply lsum_ext. intros p Hp. apply in_tuples in Hp as [Lp Rp]. rewrite (kprod_ext _ _ (fun ij => g (fst ij) (snd ij))); [reflexivity|].
  intros [i j] Hij. cbn [fst snd]. apply H; [apply in_combine_l, in_seq in Hij; lia|apply in_combine_r in Hij; apply (proj1 (Forall_forall _ _) Rp), Hij].
Qed.
Lemma determinant_one n : determinant n kdelta == k1.
Proof.
  unfold determinant. rewrite (lsum_one _ (seq 0 n)).
  - rewrite sign_sorted. assert (E : forall a s, kprod (map (fun ij => kdelta (fst ij) (snd ij)) (combine (seq s a) (seq s a))) == k1).
    { induction a as [|a IH]; intros s; cbn [seq combine map kprod fst snd]; [reflexivity|]. rewrite IH. unfold kdelta. rewrite Nat.eqb_refl. ring. }
    rewrite E. ring.
  - apply NoDup_tuples.
  - apply in_tuples. rewrite seq_length. split; [reflexivity|]. apply Forall_forall. intros x Hx. apply in_seq in Hx. lia.
  - intros p Hp Np. apply in_tuples in Hp as [Lp _].
    assert (E : forall a s q, length q = a -> q <> seq s a -> kprod (map (fun ij => kdelta (fst ij) (snd ij)) (combine (seq s a) q)) == k0).
    { induction a as [|a IH]; intros s [|y q] Lq Nq; cbn [length] in Lq; try lia; [destruct Nq; reflexivity|].
      cbn [seq combine map kprod fst snd]. unfold kdelta at 1. destruct (Nat.eqb_spec s y) as [<-|_]; [|ring]. rewrite IH; [ring|lia|].
      intros ->. apply Nq. reflexivity. }
    rewrite E by assumption. ring.
Qed.

(** the transposed matrix: the sum over all arrangements of the rows and of the columns *)
Lemma sign_values k : arrangement_sign k == k0 \/ arrangement_sign k * arrangement_sign k == k1.
Proof.
  assert (P : forall x l, kprod (map (order_sign x) l) == k0 \/ kprod (map (order_sign x) l) * kprod (map (order_sign x) l) == k1).
  { intros x. induction l as [|y l IH]; cbn [map kprod]; [right; ring|]. destruct IH as [H|H]; [left; rewrite H; ring|].
    assert (C : order_sign x y == k0 \/ order_sign x y * order_sign x y == k1) by (unfold order_sign; destruct (Nat.compare x y); [left|right|right]; ring).
    destruct C as [C|C]; [left; rewrite C; ring|right].
    transitivity ((order_sign x y * order_sign x y) * (kprod (map (order_sign x) l) * kprod (map (order_sign x) l))); [ring|rewrite C, H; ring]. }
  induction k as [|x k IH]; cbn [arrangement_sign]; [right; ring|]. destruct IH as [H|H]; [left; rewrite H; ring|]. destruct (P x k) as [Q|Q]; [left; rewrite Q; ring|right].
  transitivity ((kprod (map (order_sign x) k) * kprod (map (order_sign x) k)) * (arrangement_sign k * arrangement_sign k)); [ring|]. rewrite Q, H. ring.
Qed.
Lemma square_count (l : list (list nat)) : exists c, lsum l (fun k => arrangement_sign k * arrangement_sign k) == knat c /\
  ((exists k, In k l /\ arrangement_sign k == k1) -> c <> 0%nat \/ k1 == k0).
Proof.
  induction l as [|k l (c & Hc & Hn)]; [exists 0%nat; split; [reflexivity|intros (k & [] & _)]|].
  destruct (sign_values k) as [E|E].
  - exists c. cbn [lsum]. split; [rewrite E, Hc; ring|]. intros (k' & [<-|Hk] & E'); [right; rewrite <- E', E; reflexivity|apply Hn; eauto].
  - exists (S c). cbn [lsum knat]. split; [rewrite E, Hc; reflexivity|]. intros _. left. discriminate.
Qed.
Theorem determinant_transpose n f : determinant n (fun i j => f j i) == determinant n f.
Proof.
  set (N := lsum (tuples n n) (fun k => arrangement_sign k * arrangement_sign k)).
  assert (E : forall h, lsum (tuples n n) (fun k => arrangement_sign k * rows_det n h k) == N * determinant n h).
  { intros h. unfold N. rewrite <- lsum_scale_r. apply lsum_ext. intros k Hk. apply in_tuples in Hk as [Lk Rk]. rewrite rows_any by assumption. ring. }
  assert (T : lsum (tuples n n) (fun k => arrangement_sign k * rows_det n (fun i j => f j i) k) == lsum (tuples n n) (fun k => arrangement_sign k * rows_det n f k)).
  { transitivity (lsum (tuples n n) (fun k => lsum (tuples n n) (fun p => arrangement_sign k * arrangement_sign p * kprod (map (fun ij => f (snd ij) (fst ij)) (combine k p))))).
    - apply lsum_ext. intros k Hk. apply in_tuples in Hk as [Lk _]. unfold rows_det. rewrite Lk, <- lsum_scale. apply lsum_ext. intros p _. ring.
    - rewrite lsum_swap. apply lsum_ext. intros p Hp. apply in_tuples in Hp as [Lp _]. unfold rows_det. rewrite Lp, <- lsum_scale. apply lsum_ext. intros k _.
      assert (C : forall k p, map (fun ij => f (snd ij) (fst ij)) (combine k p) = map (fun ij => f (fst ij) (snd ij)) (combine p k)).
      { clear. induction k as [|x k IH]; intros [|y p]; cbn [combine map fst snd]; try reflexivity. rewrite IH. reflexivity. }
      rewrite C. ring. }
  rewrite !E in T. destruct (square_count (tuples n n)) as (c & Hc & Hn). fold N in Hc.
  destruct Hn as [Nz|Z].
  - exists (seq 0 n). split; [|apply sign_sorted]. apply in_tuples. rewrite seq_length. split; [reflexivity|]. apply Forall_forall. intros x Hx. apply in_seq in Hx. lia.
  - assert (I : kinvn c * N == k1) by (rewrite Hc; rewrite <- (kinvn_ok c Nz); ring).
    transitivity ((kinvn c * N) * determinant n (fun i j => f j i)); [rewrite I; ring|]. transitivity (kinvn c * (N * determinant n (fun i j => f j i))); [ring|]. rewrite T.
    transitivity ((kinvn c * N) * determinant n f); [ring|rewrite I; ring].
  - transitivity (k1 * determinant n (fun i j => f j i)); [ring|]. transitivity (k1 * determinant n f); [rewrite Z; ring|ring].
Qed.

(** the expansion by the first row *)
Definition skip (j c : nat) : nat := if (c <? j)%nat then c else S c.
Lemma skip_not j c : skip j c <> j.
Proof. unfold skip. destruct (Nat.ltb_spec c j); lia. Qed.
Lemma skip_inj j c d : skip j c = skip j d -> c = d.
Proof. unfold skip. destruct (Nat.ltb_spec c j), (Nat.ltb_spec d j); lia. Qed.
Lemma skip_mono j c d : order_sign (skip j c) (skip j d) = order_sign c d.
Proof.
  unfold order_sign. destruct (Nat.compare_spec c d) as [->|H|H].
  - rewrite Nat.compare_refl. reflexivity.
  - rewrite (proj2 (Nat.compare_lt_iff _ _)); [reflexivity|]. unfold skip. destruct (Nat.ltb_spec c j), (Nat.ltb_spec d j); lia.
  - rewrite (proj2 (Nat.compare_gt_iff _ _)); [reflexivity|]. unfold skip. destruct (Nat.ltb_spec c j), (Nat.ltb_spec d j); lia.
Qed.
Lemma seq_skip n j : (j <= n)%nat -> Permutation (seq 0 (S n)) (j :: map (skip j) (seq 0 n)).
Proof.
  intros H. symmetry. apply NoDup_Permutation_bis.
  - constructor.
    + intros Hi. apply in_map_iff in Hi as (c & E & _). apply (skip_not j c E).
    + apply FinFun.Injective_map_NoDup; [intros c d; apply skip_inj|apply seq_NoDup].
  - cbn [length]. rewrite map_length, !seq_length. lia.
  - intros x [<-|Hx]; [apply in_seq; lia|]. apply in_map_iff in Hx as (c & <- & Hc). apply in_seq in Hc. apply in_seq. unfold skip. destruct (Nat.ltb_spec c j); lia.
Qed.
Lemma nsum_skip n j (f : nat -> K) : (j <= n)%nat -> nsum (S n) f == f j + nsum n (fun c => f (skip j c)).
Proof. intros H. unfold nsum. rewrite (lsum_perm _ _ f (seq_skip n j H)). cbn [lsum]. rewrite lsum_map. reflexivity. Qed.
Lemma tuples_skip n j r : (j <= n)%nat -> forall F : list nat -> K, (forall p, In j p -> F p == k0) ->
  lsum (tuples (S n) r) F == lsum (tuples n r) (fun p => F (map (skip j) p)).
Proof.
  intros H. induction r as [|r IH]; intros F HF; [reflexivity|]. rewrite !lsum_tuples_S. rewrite (nsum_skip n j _ H).
  rewrite lsum_zero' by (intros p _; apply HF; left; reflexivity).
  rewrite (nsum_ext n (fun c => lsum (tuples (S n) r) _) (fun c => lsum (tuples n r) (fun p => F (map (skip j) (c :: p))))).
  - ring.
  - intros c _. apply (IH (fun ks => F (skip j c :: ks))). intros p Hp. apply HF. right. exact Hp.
Qed.
Lemma sign_skip j : forall p, arrangement_sign (map (skip j) p) = arrangement_sign p.
Proof.
  induction p as [|x p IH]; cbn [map arrangement_sign]; [reflexivity|]. rewrite IH, map_map. f_equal. f_equal. apply map_ext. intros y. apply skip_mono.
Qed.
Definition alternate (j : nat) : K := if Nat.even j then k1 else - k1.
Lemma alternate_S j : alternate (S j) == - alternate j.
Proof. unfold alternate. rewrite Nat.even_succ, <- Nat.negb_even. destruct (Nat.even j); cbn [negb]; ring. Qed.
Lemma below_sign j n : (j <= n)%nat -> kprod (map (fun c => order_sign j (skip j c)) (seq 0 n)) == alternate j.
Proof.
  intros H. replace n with (j + (n - j))%nat by lia. rewrite seq_app, map_app, kprod_app.
  assert (E1 : forall a s, (s + a <= j)%nat -> kprod (map (fun c => order_sign j (skip j c)) (seq s a)) == alternate a).
  { induction a as [|a IH]; intros s Ha; cbn [seq map kprod]; [reflexivity|]. rewrite IH by lia. rewrite alternate_S. unfold skip. rewrite (proj2 (Nat.ltb_lt s j)) by lia.
    unfold order_sign. rewrite (proj2 (Nat.compare_gt_iff j s)) by lia. ring. }
  assert (E2 : forall a s, (j <= s)%nat -> kprod (map (fun c => order_sign j (skip j c)) (seq s a)) == k1).
  { induction a as [|a IH]; intros s Ha; cbn [seq map kprod]; [reflexivity|]. rewrite IH by lia. unfold skip. rewrite (proj2 (Nat.ltb_ge s j)) by lia.
    unfold order_sign. rewrite (proj2 (Nat.compare_lt_iff j (S s))) by lia. ring. }
  rewrite E1, E2 by lia. ring.
Qed.
Lemma minor_sign n j p : (j <= n)%nat -> In p (tuples n n) ->
  arrangement_sign (j :: map (skip j) p) == alternate j * arrangement_sign p.
Proof.
  intros H Hp. apply in_tuples in Hp as [Lp Rp]. cbn [arrangement_sign]. rewrite sign_skip. destruct (dup_or_not p) as [N|(x & l & P)].
  - rewrite map_map. rewrite (kprod_perm _ (map (fun c => order_sign j (skip j c)) (seq 0 n))); [rewrite below_sign by exact H; reflexivity|].
    apply Permutation_map, arranged; assumption.
  - destruct (perm_signs n (fun _ _ => k0) _ _ P []) as (s & _ & _ & S2). cbn [app] in S2. rewrite S2, sign_twice. ring.
Qed.
Lemma sign_in j p : In j p -> arrangement_sign (j :: p) == k0.
Proof. intros H. cbn [arrangement_sign]. rewrite kprod_zero; [ring|]. apply in_map_iff. exists j. split; [apply order_sign_refl|exact H]. Qed.
Theorem laplace_determinant n : forall f, laplace n f == determinant n f.
Proof.
  induction n as [|n IH]; intros f; [unfold determinant; cbn; ring|]. cbn [laplace]. unfold determinant. rewrite lsum_tuples_S. unfold nsum.
  apply lsum_ext. intros j Hj. apply in_seq in Hj. rewrite IH. unfold determinant.
  rewrite (tuples_skip n j n ltac:(lia)).
  - rewrite <- lsum_scale. apply lsum_ext. intros p Hp. rewrite (minor_sign n j p) by (assumption || lia).
    change (seq 0 (S n)) with (0%nat :: seq 1 n). cbn [combine map kprod fst snd]. rewrite <- seq_shift.
    assert (E : kprod (map (fun ij => f (fst ij) (snd ij)) (combine (map S (seq 0 n)) (map (skip j) p))) ==
                kprod (map (fun ij => f (S (fst ij)) (if (snd ij <? j)%nat then snd ij else S (snd ij))) (combine (seq 0 n) p))).
    { generalize (seq 0 n). clear Hp. induction p as [|y p IHp]; intros [|x l]; cbn [map combine kprod fst snd]; try reflexivity. rewrite IHp. reflexivity. }
    rewrite E. unfold alternate. destruct (Nat.even j); ring.
  - intros p Hp. rewrite sign_in by exact Hp. ring.
Qed.
End Det.
