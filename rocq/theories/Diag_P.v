(** Curvature that is given by the curvatures of the coordinate planes of a diagonal metric. *)
From Verif Require Import Alg Alg_P Arr Arr_P Spec Act_P TensorM WorldM SpecWorld CalcM SpecCalc CurvM SpecCurv SpecDim SpecConst SpecDefault Curv_P Curv2_P CurvDim_P CurvDim2_P CurvConst_P Norm2_P Block_P Default_P.
Local Open Scope K_scope.

Section Diag.
Context {A : AlgOps} {L : AlgLaws A} {D : DiffLaws A}.
Add Ring Kring : kring (setoid keq_equiv kring_ext).
Variables (n : nat) (g gi : nat -> nat -> K) (d e : nat -> K) (q : nat -> nat -> K) (R : nat -> nat -> nat -> nat -> K).
Hypothesis Hg : forall i j, (i < n)%nat -> (j < n)%nat -> g i j == kdelta i j * d i.
Hypothesis Hgi : forall i j, (i < n)%nat -> (j < n)%nat -> gi i j == kdelta i j * e i.
Hypothesis Hde : forall i, (i < n)%nat -> d i * e i == k1.
Hypothesis Hq : forall i, (i < n)%nat -> q i i == k0.
Hypothesis HR : forall i j l m, (i < n)%nat -> (j < n)%nat -> (l < n)%nat -> (m < n)%nat -> R i j l m == planes g q i j l m.
Notation Q i := (nsum n (fun l => q l i)).

Lemma dd i : kdelta i i = k1. Proof. unfold kdelta. rewrite Nat.eqb_refl. reflexivity. Qed.
Lemma planes_ricci i j : (i < n)%nat -> (j < n)%nat -> ricci_of n R i j == Q i * g i j.
Proof.
  intros Bi Bj. unfold ricci_of. rewrite <- nsum_scale_r. apply nsum_ext. intros l Bl. rewrite HR by assumption. unfold planes.
  rewrite dd, !Hg by assumption. unfold kdelta. destruct (Nat.eqb_spec l j) as [->|]; [|ring].
  destruct (Nat.eqb_spec i j) as [->|]; [|ring]. rewrite Hq by assumption. ring.
Qed.
Lemma planes_scalar : trace_of n gi (ricci_of n R) == nsum n (fun i => Q i).
Proof.
  unfold trace_of. apply nsum_ext. intros i Bi. transitivity (nsum n (fun j => kdelta i j * Q i)); [|apply (nsum_delta_l n i (fun _ => Q i) Bi)].
  apply nsum_ext. intros j Bj. rewrite planes_ricci, Hg, Hgi by assumption. unfold kdelta. destruct (Nat.eqb_spec i j); [|ring].
  assert (E := Hde i Bi). ring [E].
Qed.
Lemma planes_lowered i j l m : (i < n)%nat -> (j < n)%nat -> (l < n)%nat -> (m < n)%nat -> lowered n g R i j l m == q i j * (g i l * g j m - g i m * g j l).
Proof.
  intros Bi Bj Bl Bm. unfold lowered. transitivity (nsum n (fun p => kdelta i p * (d i * R p j l m))).
  { apply nsum_ext. intros p Bp. rewrite Hg by assumption. ring. }
  rewrite (nsum_delta_l n i (fun p => d i * R p j l m) Bi). rewrite HR by assumption. unfold planes. rewrite (Hg i l), (Hg i m) by assumption. ring.
Qed.
Lemma planes_einstein (T : nat -> nat -> K) s i j : (forall i j, (i < n)%nat -> (j < n)%nat -> T i j == Q i * g i j) -> (i < n)%nat -> (j < n)%nat ->
  einstein_of g T s i j == (Q i - kinvn 2 * s) * g i j.
Proof. intros H Bi Bj. unfold einstein_of. rewrite H by assumption. ring. Qed.
Lemma planes_weyl s i k l m : (i < n)%nat -> (k < n)%nat -> (l < n)%nat -> (m < n)%nat ->
  weyl_of n g (lowered n g R) (ricci_of n R) s i k l m ==
  (q i k - kinvn (n - 2) * (Q i + Q k) + kinvn ((n - 2) * (n - 1)) * s) * (g i l * g k m - g i m * g k l).
Proof. intros Bi Bk Bl Bm. unfold weyl_of. rewrite planes_lowered, !planes_ricci by assumption. ring. Qed.

Lemma act_diag (M : nat -> nat -> K) c Ms f i idx : (i < n)%nat -> (forall k, (k < n)%nat -> M i k == kdelta i k * c) ->
  act n (M :: Ms) f (i :: idx) == c * act n Ms (fun ks => f (i :: ks)) idx.
Proof.
  intros Bi H. rewrite act_cons. transitivity (nsum n (fun k => kdelta i k * (c * act n Ms (fun ks => f (k :: ks)) idx))).
  { apply nsum_ext. intros k Bk. rewrite (H k Bk). ring. }
  apply (nsum_delta_l n i (fun k => c * act n Ms (fun ks => f (k :: ks)) idx) Bi).
Qed.
Lemma planes_square i j l m : (i < n)%nat -> (j < n)%nat -> (l < n)%nat -> (m < n)%nat ->
  planes g q i j l m * (d i * (e j * (e l * (e m * planes g q i j l m)))) == q i j * q i j * (kdelta i l * kdelta j m + kdelta i m * kdelta j l).
Proof.
  intros Bi Bj Bl Bm. unfold planes. rewrite !Hg by assumption. unfold kdelta.
  assert (Ei := Hde i Bi). assert (Ej := Hde j Bj). assert (Zq := Hq i Bi).
  destruct (Nat.eqb_spec i l) as [<-|H1], (Nat.eqb_spec j m) as [<-|H2]; try (destruct (Nat.eqb_spec i j) as [<-|H3]; rewrite ?Nat.eqb_refl).
  all: try (destruct (Nat.eqb_spec j i) as [->|H4]; [congruence|]).
  all: try (destruct (Nat.eqb_spec i m) as [<-|H5]).
  all: try (destruct (Nat.eqb_spec j l) as [<-|H6]).
  all: try congruence.
  all: ring [Ei Ej Zq].
Qed.
(** The norm squared of the Riemann tensor. *)
Lemma planes_norm : norm_of n g gi [1; -1; -1; -1]%Z (at4 R) == nsum n (fun i => nsum n (fun j => (k1 + k1) * (q i j * q i j))).
Proof.
  unfold norm_of. cbn [length]. rewrite lsum_tuples_S. apply nsum_ext. intros i Bi. rewrite lsum_tuples_S. apply nsum_ext. intros j Bj.
  transitivity (nsum n (fun l => nsum n (fun m => q i j * q i j * (kdelta i l * kdelta j m + kdelta i m * kdelta j l)))).
  - rewrite lsum_tuples_S. apply nsum_ext. intros l Bl. rewrite lsum_tuples_S. apply nsum_ext. intros m Bm. cbn [tuples lsum].
    rewrite <- planes_square by assumption. rewrite <- HR by assumption.
    unfold converted. cbn [map combine fst snd Z.opp].
    rewrite (act_diag _ (d i)) by (try assumption; intros; unfold conv; cbn [Z.eqb Pos.eqb]; apply Hg; assumption).
    rewrite (act_diag _ (e j)) by (try assumption; intros; unfold conv; cbn [Z.eqb Pos.eqb]; apply Hgi; assumption).
    rewrite (act_diag _ (e l)) by (try assumption; intros; unfold conv; cbn [Z.eqb Pos.eqb]; apply Hgi; assumption).
    rewrite (act_diag _ (e m)) by (try assumption; intros; unfold conv; cbn [Z.eqb Pos.eqb]; apply Hgi; assumption).
    rewrite act_nil. unfold at4. cbn [nth]. ring.
  - transitivity (nsum n (fun l => kdelta i l * (q i j * q i j) + kdelta j l * (q i j * q i j))).
    + apply nsum_ext. intros l Bl. transitivity (nsum n (fun m => kdelta j m * (q i j * q i j * kdelta i l) + kdelta i m * (q i j * q i j * kdelta j l))); [apply nsum_ext; intros; ring|].
      rewrite nsum_add, (nsum_delta_l n j (fun _ => q i j * q i j * kdelta i l) Bj), (nsum_delta_l n i (fun _ => q i j * q i j * kdelta j l) Bi). ring.
    + rewrite nsum_add, (nsum_delta_l n j (fun _ => q i j * q i j) Bj), (nsum_delta_l n i (fun _ => q i j * q i j) Bi). ring.
Qed.
End Diag.

(** In four dimensions, with the metric and the connection given by tables. *)
Section Four.
Context {A : AlgOps} {L : AlgLaws A} {D : DiffLaws A}.
Add Ring Kring2 : kring (setoid keq_equiv kring_ext).
Variables (xs : list string) (g gi g' gi' : nat -> nat -> K).
Hypothesis Hi : inverse_fun 4 g gi.
Hypothesis Hg : forall i j, (i < 4)%nat -> (j < 4)%nat -> g i j == g' i j.
Hypothesis Hv : forall i j, (i < 4)%nat -> (j < 4)%nat -> nsum 4 (fun l => g' i l * gi' l j) == kdelta i j.
Variable dg : nat -> nat -> nat -> K.
Hypothesis Hdg : forall l p q, (l < 4)%nat -> (p < 4)%nat -> (q < 4)%nat -> kdiff (cx xs l) (g' p q) == dg l p q.
Variable G : nat -> nat -> nat -> K.
Hypothesis HG : forall i j k, (i < 4)%nat -> (j < 4)%nat -> (k < 4)%nat ->
  nsum 4 (fun l => gi' i l * (dg j l k + dg k j l - dg l j k)) == G i j k + G i j k.
Variable dG : nat -> nat -> nat -> nat -> K.
Hypothesis HdG : forall p i j k, (p < 4)%nat -> (i < 4)%nat -> (j < 4)%nat -> (k < 4)%nat -> kdiff (cx xs p) (G i j k) == dG p i j k.
Variable q : nat -> nat -> K.
Hypothesis HR : forall i j l m, (i < 4)%nat -> (j < 4)%nat -> (l < 4)%nat -> (m < 4)%nat ->
  dG l i m j - dG m i l j + nsum 4 (fun p => G i l p * G p m j) - nsum 4 (fun p => G i m p * G p l j) == planes g' q i j l m.

Lemma four_inverse i j : (i < 4)%nat -> (j < 4)%nat -> gi i j == gi' i j.
Proof.
  intros Bi Bj. apply (inverse_same 4 g gi gi' Hi); [|exact Bi|exact Bj]. intros a b Ba Bb. rewrite <- (Hv a b Ba Bb).
  apply nsum_ext. intros l Bl. rewrite Hg by assumption. reflexivity.
Qed.
Lemma four_gam i j k : (i < 4)%nat -> (j < 4)%nat -> (k < 4)%nat -> Gam 4 xs g gi i j k == G i j k.
Proof.
  apply (christoffel_table 4 (cx xs) g gi gi G dg).
  - intros l a b Bl Ba Bb. rewrite <- (Hdg l a b Bl Ba Bb). apply kdiff_proper, Hg; assumption.
  - intros a b c Ba Bb Bc. rewrite <- (HG a b c Ba Bb Bc). apply nsum_ext. intros l Bl. rewrite four_inverse by assumption. reflexivity.
Qed.
Lemma four_rie i j l m : (i < 4)%nat -> (j < 4)%nat -> (l < 4)%nat -> (m < 4)%nat -> Rie 4 xs g gi i j l m == planes g q i j l m.
Proof.
  intros Bi Bj Bl Bm. unfold planes. rewrite !(Hg j) by assumption. fold (planes g' q i j l m). rewrite <- HR by assumption.
  unfold Rie, riemann_of. apply ksub_proper; [apply kadd_proper; [apply ksub_proper|]|].
  - rewrite <- HdG by assumption. apply kdiff_proper, four_gam; assumption.
  - rewrite <- HdG by assumption. apply kdiff_proper, four_gam; assumption.
  - apply nsum_ext. intros p Bp. rewrite !four_gam by assumption. reflexivity.
  - apply nsum_ext. intros p Bp. rewrite !four_gam by assumption. reflexivity.
Qed.
End Four.
