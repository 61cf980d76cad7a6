(** Lemmas about the component algebra and finite sums. *)
From Coq Require Import Permutation.
From Verif Require Import Alg.
Local Open Scope K_scope.

Section AlgP.
Context {A : AlgOps} {L : AlgLaws A}.

Lemma kring_ext : ring_eq_ext kadd kmul kopp keq.
Proof.
  constructor.
  - intros x x' Hx y y' Hy; rewrite Hx, Hy; reflexivity.
  - intros x x' Hx y y' Hy; rewrite Hx, Hy; reflexivity.
  - intros x x' Hx; rewrite Hx; reflexivity.
Qed.

Add Ring Kring : kring (setoid keq_equiv kring_ext).

Global Instance ksub_proper : Proper (keq ==> keq ==> keq) ksub.
Proof.
  intros x x' Hx y y' Hy.
  rewrite (Rsub_def kring x y), (Rsub_def kring x' y'), Hx, Hy; reflexivity.
Qed.

Global Instance simp_proper : Proper (keq ==> keq) simp.
Proof. intros x y H; rewrite !simp_ok; exact H. Qed.

Lemma lsum_ext {X} (l : list X) f g :
  (forall x, In x l -> f x == g x) -> lsum l f == lsum l g.
Proof.
  induction l as [|x l IH]; intros H; cbn; [reflexivity|].
  rewrite (H x (or_introl eq_refl)), IH; [reflexivity|].
  intros y Hy; apply H; right; exact Hy.
Qed.

Global Instance lsum_proper {X} (l : list X) :
  Proper (pointwise_relation X keq ==> keq) (lsum l).
Proof. intros f g H; apply lsum_ext; intros x _; apply H. Qed.

Lemma lsum_eq {X} (l : list X) f g :
  (forall x, In x l -> f x = g x) -> lsum l f = lsum l g.
Proof.
  induction l as [|x l IH]; intros H; cbn; [reflexivity|].
  rewrite (H x (or_introl eq_refl)), IH; [reflexivity|].
  intros y Hy; apply H; right; exact Hy.
Qed.

Lemma lsum_zero {X} (l : list X) : lsum l (fun _ => k0) == k0.
Proof. induction l as [|x l IH]; cbn; [reflexivity|]. rewrite IH; ring. Qed.

Lemma lsum_zero' {X} (l : list X) f : (forall x, In x l -> f x == k0) -> lsum l f == k0.
Proof. intros H; rewrite (lsum_ext l f (fun _ => k0) H); apply lsum_zero. Qed.

Lemma lsum_add {X} (l : list X) f g :
  lsum l (fun x => f x + g x) == lsum l f + lsum l g.
Proof. induction l as [|x l IH]; cbn; [ring|]. rewrite IH; ring. Qed.

Lemma lsum_sub {X} (l : list X) f g :
  lsum l (fun x => f x - g x) == lsum l f - lsum l g.
Proof. induction l as [|x l IH]; cbn; [ring|]. rewrite IH; ring. Qed.

Lemma lsum_opp {X} (l : list X) f : lsum l (fun x => - f x) == - lsum l f.
Proof. induction l as [|x l IH]; cbn; [ring|]. rewrite IH; ring. Qed.

Lemma lsum_scale {X} (l : list X) c f : lsum l (fun x => c * f x) == c * lsum l f.
Proof. induction l as [|x l IH]; cbn; [ring|]. rewrite IH; ring. Qed.

Lemma lsum_scale_r {X} (l : list X) c f : lsum l (fun x => f x * c) == lsum l f * c.
Proof. induction l as [|x l IH]; cbn; [ring|]. rewrite IH; ring. Qed.

Lemma lsum_app {X} (l l' : list X) f : lsum (l ++ l') f == lsum l f + lsum l' f.
Proof. induction l as [|x l IH]; cbn; [ring|]. rewrite IH; ring. Qed.

Lemma lsum_map {X Y} (h : X -> Y) (l : list X) f : lsum (map h l) f = lsum l (fun x => f (h x)).
Proof. induction l as [|x l IH]; cbn; [reflexivity|]. rewrite IH; reflexivity. Qed.

Lemma lsum_flat_map {X Y} (h : X -> list Y) (l : list X) f :
  lsum (flat_map h l) f == lsum l (fun x => lsum (h x) f).
Proof. induction l as [|x l IH]; cbn; [reflexivity|]. rewrite lsum_app, IH; reflexivity. Qed.

Lemma lsum_swap {X Y} (l : list X) (l' : list Y) f :
  lsum l (fun x => lsum l' (fun y => f x y)) == lsum l' (fun y => lsum l (fun x => f x y)).
Proof.
  induction l as [|x l IH]; cbn.
  - symmetry; apply lsum_zero.
  - rewrite IH, lsum_add; reflexivity.
Qed.

Lemma lsum_perm {X} (l l' : list X) f : Permutation l l' -> lsum l f == lsum l' f.
Proof.
  induction 1 as [|x l l' H IH|x y l|l l' l'' H IH H' IH']; cbn.
  - reflexivity.
  - rewrite IH; reflexivity.
  - ring.
  - rewrite IH; exact IH'.
Qed.

Lemma lsum_single {X} (x : X) f : lsum [x] f == f x.
Proof. cbn; ring. Qed.

(** A sum with at most one non-zero term. *)
Lemma lsum_one {X} (l : list X) (x0 : X) f :
  NoDup l -> In x0 l -> (forall x, In x l -> x <> x0 -> f x == k0) -> lsum l f == f x0.
Proof.
  induction l as [|x l IH]; intros Hnd Hin H; [contradiction|].
  cbn. inversion Hnd as [|x' l' Hx Hl Heq]; subst.
  destruct Hin as [->|Hin].
  - rewrite lsum_zero'; [ring|].
    intros y Hy; apply H; [right; exact Hy|].
    intros ->; contradiction.
  - rewrite IH; [|exact Hl|exact Hin|intros y Hy Hne; apply H; [right; exact Hy|exact Hne]].
    rewrite (H x); [ring|left; reflexivity|].
    intros ->; contradiction.
Qed.

Lemma nsum_ext n f g : (forall i, (i < n)%nat -> f i == g i) -> nsum n f == nsum n g.
Proof. intros H; apply lsum_ext; intros i Hi; apply H; apply in_seq in Hi; lia. Qed.

Lemma nsum_eq n f g : (forall i, (i < n)%nat -> f i = g i) -> nsum n f = nsum n g.
Proof. intros H; apply lsum_eq; intros i Hi; apply H; apply in_seq in Hi; lia. Qed.

Global Instance nsum_proper n : Proper (pointwise_relation nat keq ==> keq) (nsum n).
Proof. intros f g H; apply nsum_ext; intros i _; apply H. Qed.

Lemma nsum_zero n : nsum n (fun _ => k0) == k0.
Proof. apply lsum_zero. Qed.
Lemma nsum_zero' n f : (forall i, (i < n)%nat -> f i == k0) -> nsum n f == k0.
Proof. intros H; rewrite (nsum_ext n f (fun _ => k0) H); apply nsum_zero. Qed.
Lemma nsum_add n f g : nsum n (fun i => f i + g i) == nsum n f + nsum n g.
Proof. apply lsum_add. Qed.
Lemma nsum_sub n f g : nsum n (fun i => f i - g i) == nsum n f - nsum n g.
Proof. apply lsum_sub. Qed.
Lemma nsum_opp n f : nsum n (fun i => - f i) == - nsum n f.
Proof. apply lsum_opp. Qed.
Lemma nsum_scale n c f : nsum n (fun i => c * f i) == c * nsum n f.
Proof. apply lsum_scale. Qed.
Lemma nsum_scale_r n c f : nsum n (fun i => f i * c) == nsum n f * c.
Proof. apply lsum_scale_r. Qed.
Lemma nsum_swap n m f :
  nsum n (fun i => nsum m (fun j => f i j)) == nsum m (fun j => nsum n (fun i => f i j)).
Proof. apply lsum_swap. Qed.

Lemma kdelta_same i : kdelta i i = k1.
Proof. unfold kdelta; rewrite Nat.eqb_refl; reflexivity. Qed.
Lemma kdelta_diff i j : i <> j -> kdelta i j = k0.
Proof. intros H; unfold kdelta; apply Nat.eqb_neq in H; rewrite H; reflexivity. Qed.
Lemma kdelta_sym i j : kdelta i j = kdelta j i.
Proof. unfold kdelta; rewrite Nat.eqb_sym; reflexivity. Qed.

Lemma nsum_one n i0 f :
  (i0 < n)%nat -> (forall i, (i < n)%nat -> i <> i0 -> f i == k0) -> nsum n f == f i0.
Proof.
  intros Hi H; apply lsum_one.
  - apply seq_NoDup.
  - apply in_seq; lia.
  - intros x Hx Hne; apply H; [apply in_seq in Hx; lia|exact Hne].
Qed.

Lemma nsum_delta_l n i f : (i < n)%nat -> nsum n (fun k => kdelta i k * f k) == f i.
Proof.
  intros Hi; rewrite (nsum_one n i).
  - rewrite kdelta_same; ring.
  - exact Hi.
  - intros k Hk Hne; rewrite kdelta_diff; [ring|congruence].
Qed.

Lemma nsum_delta_r n i f : (i < n)%nat -> nsum n (fun k => f k * kdelta k i) == f i.
Proof.
  intros Hi. rewrite (nsum_ext n _ (fun k => kdelta i k * f k)).
  - apply nsum_delta_l; exact Hi.
  - intros k _; rewrite kdelta_sym; ring.
Qed.

Lemma nsum_delta_l' n i f : (i < n)%nat -> nsum n (fun k => kdelta k i * f k) == f i.
Proof.
  intros Hi. rewrite (nsum_ext n _ (fun k => kdelta i k * f k)).
  - apply nsum_delta_l; exact Hi.
  - intros k _; rewrite kdelta_sym; ring.
Qed.

Lemma nsum_delta_r' n i f : (i < n)%nat -> nsum n (fun k => f k * kdelta i k) == f i.
Proof.
  intros Hi. rewrite (nsum_ext n _ (fun k => kdelta i k * f k)).
  - apply nsum_delta_l; exact Hi.
  - intros k _; ring.
Qed.

Lemma nsum_const n c : nsum n (fun _ => c) == knat n * c.
Proof.
  unfold nsum. generalize 0%nat as s.
  induction n as [|n IH]; intros s; cbn; [ring|].
  rewrite IH; ring.
Qed.

Lemma knat_add n m : knat (n + m) == knat n + knat m.
Proof. induction n as [|n IH]; cbn; [ring|]. rewrite IH; ring. Qed.
Lemma knat_mul n m : knat (n * m) == knat n * knat m.
Proof. induction n as [|n IH]; cbn; [ring|]. rewrite knat_add, IH; ring. Qed.

Lemma ksub_self x : x - x == k0.
Proof. ring. Qed.

Lemma ksub_zero_eq x y : x - y == k0 -> x == y.
Proof.
  intros H. assert (E : x == (x - y) + y) by ring. rewrite E, H; ring.
Qed.

(** Half of something. *)
Lemma khalf_double x : kinvn 2 * (x + x) == x.
Proof.
  assert (H : knat 2 * kinvn 2 == k1) by (apply kinvn_ok; discriminate).
  cbn in H.
  assert (E : kinvn 2 * (x + x) == ((k1 + (k1 + k0)) * kinvn 2) * x) by ring.
  rewrite E, H; ring.
Qed.

Context {D : DiffLaws A}.

Lemma kdiff_0 s : kdiff s k0 == k0.
Proof.
  assert (H : kdiff s (k0 + k0) == kdiff s k0 + kdiff s k0) by apply kdiff_add.
  assert (E : k0 + k0 == k0) by ring.
  rewrite E in H.
  assert (F : kdiff s k0 == (kdiff s k0 + kdiff s k0) - kdiff s k0) by ring.
  rewrite F, <- H; ring.
Qed.

Lemma kdiff_opp s x : kdiff s (- x) == - kdiff s x.
Proof.
  assert (H : kdiff s (x + - x) == kdiff s x + kdiff s (- x)) by apply kdiff_add.
  assert (E : x + - x == k0) by ring.
  rewrite E, kdiff_0 in H.
  assert (F : kdiff s (- x) == (kdiff s x + kdiff s (- x)) - kdiff s x) by ring.
  rewrite F, <- H; ring.
Qed.

Lemma kdiff_sub s x y : kdiff s (x - y) == kdiff s x - kdiff s y.
Proof.
  assert (E : x - y == x + - y) by ring.
  rewrite E, kdiff_add, kdiff_opp; ring.
Qed.

Lemma kdiff_1 s : kdiff s k1 == k0.
Proof.
  assert (H : kdiff s (k1 * k1) == kdiff s k1 * k1 + k1 * kdiff s k1) by apply kdiff_mul.
  assert (E : k1 * k1 == k1) by ring.
  rewrite E in H.
  assert (F : kdiff s k1 == (kdiff s k1 * k1 + k1 * kdiff s k1) - kdiff s k1) by ring.
  rewrite F, <- H; ring.
Qed.

Lemma kdiff_knat s n : kdiff s (knat n) == k0.
Proof.
  induction n as [|n IH]; cbn; [apply kdiff_0|].
  rewrite kdiff_add, kdiff_1, IH; ring.
Qed.

Lemma kdiff_kinvn s n : n <> O -> kdiff s (kinvn n) == k0.
Proof.
  intros Hn.
  assert (H : kdiff s (knat n * kinvn n) == kdiff s k1).
  { apply kdiff_proper; apply kinvn_ok; exact Hn. }
  rewrite kdiff_mul, kdiff_knat, kdiff_1 in H.
  assert (E : kdiff s (kinvn n) == (knat n * kinvn n) * kdiff s (kinvn n)).
  { rewrite kinvn_ok by exact Hn; ring. }
  assert (F : (knat n * kinvn n) * kdiff s (kinvn n)
              == kinvn n * (k0 * kinvn n + knat n * kdiff s (kinvn n))) by ring.
  rewrite E, F, H; ring.
Qed.

Lemma kdiff_lsum {X} s (l : list X) f : kdiff s (lsum l f) == lsum l (fun x => kdiff s (f x)).
Proof.
  induction l as [|x l IH]; cbn; [apply kdiff_0|].
  rewrite kdiff_add, IH; reflexivity.
Qed.

Lemma kdiff_nsum s n f : kdiff s (nsum n f) == nsum n (fun i => kdiff s (f i)).
Proof. apply kdiff_lsum. Qed.

End AlgP.
