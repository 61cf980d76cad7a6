(** The curvature of the metrics of Defaults.py: the formulas. *)
From Verif Require Import Alg Alg_P Arr Arr_P Spec Act_P TensorM WorldM SpecWorld CalcM SpecCalc CurvM SpecCurv SpecDim SpecConst SpecDefault Curv_P Curv2_P CurvDim_P CurvDim2_P CurvConst_P Scale_P Voss_P Block_P.
Local Open Scope K_scope.

Section Tools.
Context {A : AlgOps} {L : AlgLaws A} {D : DiffLaws A}.
Add Ring Kring : kring (setoid keq_equiv kring_ext).

Lemma sum4 f : nsum 4 f == f 0%nat + f 1%nat + f 2%nat + f 3%nat.
Proof. unfold nsum. cbn [seq lsum]. ring. Qed.
Lemma sub_zero a b : a - b == k0 -> a == b.
Proof. intros H. transitivity (a - b + b); [ring|]. rewrite H. ring. Qed.
(** 2 G = the sum without the factor 1/2 *)
Lemma christoffel_table n x (g gi T : nat -> nat -> K) (G : nat -> nat -> nat -> K) dg :
  (forall l p q, (l < n)%nat -> (p < n)%nat -> (q < n)%nat -> kdiff (x l) (g p q) == dg l p q) ->
  (forall i j k, (i < n)%nat -> (j < n)%nat -> (k < n)%nat ->
     nsum n (fun l => gi i l * (dg j l k + dg k j l - dg l j k)) == G i j k + G i j k) ->
  forall i j k, (i < n)%nat -> (j < n)%nat -> (k < n)%nat -> christoffel_of n x g gi i j k == G i j k.
Proof.
  intros Hd H i j k Bi Bj Bk. unfold christoffel_of.
  transitivity (kinvn 2 * nsum n (fun l => gi i l * (dg j l k + dg k j l - dg l j k))).
  { rewrite <- nsum_scale. apply nsum_ext. intros l Bl. rewrite !Hd by assumption. reflexivity. }
  rewrite (H i j k Bi Bj Bk). transitivity (kinvn 2 * (G i j k + G i j k)); [reflexivity|]. apply half_double.
Qed.
End Tools.

Section Atoms.
Context {A : AlgOps} {L : AlgLaws A} {D : DiffLaws A}.
Add Ring Kring2 : kring (setoid keq_equiv kring_ext).
Lemma diff_inv s u v : u * v == k1 -> kdiff s v == - (kdiff s u * (v * v)).
Proof.
  intros H. assert (E : kdiff s u * v + u * kdiff s v == k0) by (rewrite <- kdiff_mul, H; apply kdiff_1).
  transitivity (v * (kdiff s u * v + u * kdiff s v) - kdiff s u * (v * v) - (u * v - k1) * kdiff s v); [ring|]. rewrite E, H. ring.
Qed.
Lemma depends_inv xs q u v d : u * v == k1 -> depends_on xs q u d -> depends_on xs q v (- (d * (v * v))).
Proof. intros H Hd p Bp. rewrite (diff_inv _ u v H), (Hd p Bp). destruct (p =? q); ring. Qed.
End Atoms.

Ltac four i := destruct i as [|[|[|[|i]]]]; [| | | |lia].
Ltac deriv := rewrite ?kdiff_mul, ?kdiff_add, ?kdiff_sub, ?kdiff_opp, ?kdiff_mul, ?kdiff_add, ?kdiff_sub, ?kdiff_mul, ?kdiff_add, ?kdiff_mul, ?kdiff_mul, ?kdiff_1, ?kdiff_0.

Section Schwarzschild.
Context {A : AlgOps} {L : AlgLaws A} {D : DiffLaws A}.
Add Ring Kring3 : kring (setoid keq_equiv kring_ext).
Variables (xs : list string) (M R Ri S Si C Fi : K).
Hypothesis Hf : spherical_functions xs R Ri S Si C.
Hypothesis HM : constant_in xs M.
Hypothesis HF : horizon_function M Ri * Fi == k1.
Notation F := (k1 - (k1 + k1) * (M * Ri)).
Notation x := (cx xs).

Lemma s_len : length xs = 4%nat. Proof. apply Hf. Qed.
Lemma s_R : R * Ri == k1. Proof. apply Hf. Qed.
Lemma s_S : S * Si == k1. Proof. apply Hf. Qed.
Lemma s_C : C * C == k1 - S * S.
Proof. destruct Hf as (_ & _ & _ & H & _). transitivity (S * S + C * C - S * S); [ring|]. rewrite H. reflexivity. Qed.
Lemma s_F : (k1 + k1) * (M * Fi) == R * Fi - R.
Proof.
  transitivity (R * Fi - R * (F * Fi) + (k1 + k1) * (M * Fi) * (k1 - R * Ri)); [ring|]. unfold horizon_function in HF. rewrite HF, s_R. ring.
Qed.
Lemma d_R p : (p < 4)%nat -> kdiff (x p) R == if p =? 1 then k1 else k0.
Proof. intros B. destruct Hf as (Hl & _ & _ & _ & H & _). apply H. lia. Qed.
Lemma d_S p : (p < 4)%nat -> kdiff (x p) S == if p =? 2 then C else k0.
Proof. intros B. destruct Hf as (Hl & _ & _ & _ & _ & H & _). apply H. lia. Qed.
Lemma d_C p : (p < 4)%nat -> kdiff (x p) C == if p =? 2 then - S else k0.
Proof. intros B. destruct Hf as (Hl & _ & _ & _ & _ & _ & H). apply H. lia. Qed.
Lemma d_M p : (p < 4)%nat -> kdiff (x p) M == k0.
Proof. intros B. apply HM. rewrite s_len. exact B. Qed.
Lemma d_Ri p : (p < 4)%nat -> kdiff (x p) Ri == if p =? 1 then - (Ri * Ri) else k0.
Proof. intros B. rewrite (diff_inv _ R Ri s_R), (d_R p B). destruct (p =? 1); ring. Qed.
Lemma d_Si p : (p < 4)%nat -> kdiff (x p) Si == if p =? 2 then - (C * (Si * Si)) else k0.
Proof. intros B. rewrite (diff_inv _ S Si s_S), (d_S p B). destruct (p =? 2); ring. Qed.
Lemma d_Fi p : (p < 4)%nat -> kdiff (x p) Fi == if p =? 1 then - ((k1 + k1) * (M * (Ri * Ri)) * (Fi * Fi)) else k0.
Proof.
  intros B. rewrite (diff_inv _ F Fi HF). deriv. rewrite (d_M p B), (d_Ri p B). destruct (p =? 1); ring.
Qed.

Notation g := (schwarzschild M R Ri S Fi).
Definition s_gi : nat -> nat -> K := diagonal [- Fi; F; Ri * Ri; Ri * Ri * (Si * Si)].
Definition s_dg (l p q : nat) : K :=
  match l, p, q with
  | 1, 0, 0 => - ((k1 + k1) * (M * (Ri * Ri)))
  | 1, 1, 1 => - ((k1 + k1) * (M * (Ri * Ri)) * (Fi * Fi))
  | 1, 2, 2 => R + R
  | 1, 3, 3 => (R + R) * (S * S)
  | 2, 3, 3 => (R * R) * (S * C + S * C)
  | _, _, _ => k0
  end.
Notation s_G := (schwarzschild_gamma M R Ri S Si C Fi).
Definition s_dG (p i j k : nat) : K :=
  match p, i, j, k with
  | 1, 0, 0, 1 | 1, 0, 1, 0 => - ((k1 + k1) * M * (Ri * Ri * Ri) * Fi + M * (Ri * Ri) * ((k1 + k1) * (M * (Ri * Ri)) * (Fi * Fi)))
  | 1, 1, 0, 0 => (k1 + k1) * (M * M * (Ri * Ri * Ri * Ri)) - (k1 + k1) * M * (Ri * Ri * Ri) * F
  | 1, 1, 1, 1 => (k1 + k1) * M * (Ri * Ri * Ri) * Fi + M * (Ri * Ri) * ((k1 + k1) * (M * (Ri * Ri)) * (Fi * Fi))
  | 1, 1, 2, 2 => - k1
  | 1, 1, 3, 3 => - (S * S)
  | 2, 1, 3, 3 => - (R * F * (S * C + S * C))
  | 1, 2, 1, 2 | 1, 2, 2, 1 | 1, 3, 1, 3 | 1, 3, 3, 1 => - (Ri * Ri)
  | 2, 2, 3, 3 => S * S - C * C
  | 2, 3, 2, 3 | 2, 3, 3, 2 => - (Si * Si)
  | _, _, _, _ => k0
  end.
Ltac fin := apply sub_zero; ring [s_R s_S s_C s_F].
Lemma s_inverse i j : (i < 4)%nat -> (j < 4)%nat -> nsum 4 (fun l => g i l * s_gi l j) == kdelta i j.
Proof.
  intros Bi Bj. assert (E := HF). unfold horizon_function in E.
  rewrite sum4. unfold schwarzschild, horizon_function, s_gi, diagonal, kdelta. four i; four j; cbn [Nat.eqb nth]; fin.
Qed.
Lemma s_dg_ok l p q : (l < 4)%nat -> (p < 4)%nat -> (q < 4)%nat -> kdiff (x l) (g p q) == s_dg l p q.
Proof.
  intros Bl Bp Bq. unfold schwarzschild, horizon_function, diagonal.
  four p; four q; cbn [Nat.eqb nth]; deriv; rewrite ?(d_M l Bl), ?(d_R l Bl), ?(d_Ri l Bl), ?(d_S l Bl), ?(d_Fi l Bl); four l; cbn [Nat.eqb s_dg]; ring.
Qed.
Lemma s_G_ok i j k : (i < 4)%nat -> (j < 4)%nat -> (k < 4)%nat ->
  nsum 4 (fun l => s_gi i l * (s_dg j l k + s_dg k j l - s_dg l j k)) == s_G i j k + s_G i j k.
Proof.
  intros Bi Bj Bk. rewrite sum4. unfold s_gi, diagonal. four i; four j; four k; cbn [Nat.eqb nth s_dg schwarzschild_gamma]; unfold horizon_function; fin.
Qed.
Lemma s_dG_ok p i j k : (p < 4)%nat -> (i < 4)%nat -> (j < 4)%nat -> (k < 4)%nat -> kdiff (x p) (s_G i j k) == s_dG p i j k.
Proof.
  intros Bp Bi Bj Bk.
  four i; four j; four k; cbn [schwarzschild_gamma]; unfold horizon_function; deriv; rewrite ?(d_M p Bp), ?(d_R p Bp), ?(d_Ri p Bp), ?(d_S p Bp), ?(d_Si p Bp), ?(d_C p Bp), ?(d_Fi p Bp); four p; cbn [Nat.eqb s_dG]; fin.
Qed.
Notation u := (M * (Ri * Ri * Ri)).
Lemma s_rie i j l m : (i < 4)%nat -> (j < 4)%nat -> (l < 4)%nat -> (m < 4)%nat ->
  s_dG l i m j - s_dG m i l j + nsum 4 (fun p => s_G i l p * s_G p m j) - nsum 4 (fun p => s_G i m p * s_G p l j)
  == planes g (schwarzschild_planes u) i j l m.
Proof.
  intros Bi Bj Bl Bm. rewrite !sum4. unfold planes, schwarzschild, horizon_function, diagonal, kdelta.
  four i; four j; four l; four m; cbn [Nat.eqb nth s_dG schwarzschild_gamma schwarzschild_planes]; unfold horizon_function; fin.
Qed.
End Schwarzschild.

Section Flrw.
Context {A : AlgOps} {L : AlgLaws A} {D : DiffLaws A}.
Add Ring Kring4 : kring (setoid keq_equiv kring_ext).
Variables (xs : list string) (a ai a1 a2 k R Ri S Si C Wi : K).
Hypothesis Hf : spherical_functions xs R Ri S Si C.
Hypothesis Hk : constant_in xs k.
Hypothesis Ha : a * ai == k1.
Hypothesis Ha1 : depends_on xs 0 a a1.
Hypothesis Ha2 : depends_on xs 0 a1 a2.
Hypothesis HW : curvature_function k R * Wi == k1.
Notation W := (k1 - k * (R * R)).
Notation x := (cx xs).

Let l4 : length xs = 4%nat := proj1 Hf.
Let f_R : R * Ri == k1 := s_R xs R Ri S Si C Hf.
Let f_S : S * Si == k1 := s_S xs R Ri S Si C Hf.
Let f_C : C * C == k1 - S * S := s_C xs R Ri S Si C Hf.
Lemma f_W : k * Wi == Ri * Ri * Wi - Ri * Ri.
Proof.
  transitivity (Ri * Ri * Wi - Ri * Ri * (W * Wi) + k * Wi * (k1 - R * Ri) * (k1 + R * Ri)); [ring|].
  unfold curvature_function in HW. rewrite HW, f_R. ring.
Qed.
Let e_R p (B : (p < 4)%nat) := d_R xs R Ri S Si C Hf p B.
Let e_S p (B : (p < 4)%nat) := d_S xs R Ri S Si C Hf p B.
Let e_C p (B : (p < 4)%nat) := d_C xs R Ri S Si C Hf p B.
Let e_Ri p (B : (p < 4)%nat) := d_Ri xs R Ri S Si C Hf p B.
Let e_Si p (B : (p < 4)%nat) := d_Si xs R Ri S Si C Hf p B.
Lemma d_k p : (p < 4)%nat -> kdiff (x p) k == k0.
Proof. intros B. apply Hk. rewrite l4. exact B. Qed.
Lemma d_a p : (p < 4)%nat -> kdiff (x p) a == if p =? 0 then a1 else k0.
Proof. intros B. apply Ha1. rewrite l4. exact B. Qed.
Lemma d_a1 p : (p < 4)%nat -> kdiff (x p) a1 == if p =? 0 then a2 else k0.
Proof. intros B. apply Ha2. rewrite l4. exact B. Qed.
Lemma d_ai p : (p < 4)%nat -> kdiff (x p) ai == if p =? 0 then - (a1 * (ai * ai)) else k0.
Proof. intros B. rewrite (diff_inv _ a ai Ha), (d_a p B). destruct (p =? 0); ring. Qed.
Lemma d_Wi p : (p < 4)%nat -> kdiff (x p) Wi == if p =? 1 then (k1 + k1) * (k * R) * (Wi * Wi) else k0.
Proof. intros B. rewrite (diff_inv _ W Wi HW). deriv. rewrite (d_k p B), (e_R p B). destruct (p =? 1); ring. Qed.

Notation g := (flrw a R S Wi).
Definition f_gi : nat -> nat -> K := diagonal [- k1; ai * ai * W; ai * ai * (Ri * Ri); ai * ai * (Ri * Ri) * (Si * Si)].
Definition f_dg (l p q : nat) : K :=
  match l, p, q with
  | 0, 1, 1 => (a * a1 + a * a1) * Wi
  | 0, 2, 2 => (a * a1 + a * a1) * (R * R)
  | 0, 3, 3 => (a * a1 + a * a1) * (R * R) * (S * S)
  | 1, 1, 1 => a * a * ((k1 + k1) * (k * R) * (Wi * Wi))
  | 1, 2, 2 => a * a * (R + R)
  | 1, 3, 3 => a * a * (R + R) * (S * S)
  | 2, 3, 3 => a * a * (R * R) * (S * C + S * C)
  | _, _, _ => k0
  end.
Notation f_G := (flrw_gamma a ai a1 k R Ri S Si C Wi).
Definition f_dG (p i j l : nat) : K :=
  match p, i, j, l with
  | 0, 0, 1, 1 => (a1 * a1 + a * a2) * Wi
  | 0, 0, 2, 2 => (a1 * a1 + a * a2) * (R * R)
  | 0, 0, 3, 3 => (a1 * a1 + a * a2) * (R * R) * (S * S)
  | 1, 0, 1, 1 => a * a1 * ((k1 + k1) * (k * R) * (Wi * Wi))
  | 1, 0, 2, 2 => a * a1 * (R + R)
  | 1, 0, 3, 3 => a * a1 * (R + R) * (S * S)
  | 2, 0, 3, 3 => a * a1 * (R * R) * (S * C + S * C)
  | 0, 1, 0, 1 | 0, 1, 1, 0 | 0, 2, 0, 2 | 0, 2, 2, 0 | 0, 3, 0, 3 | 0, 3, 3, 0 => a2 * ai - a1 * a1 * (ai * ai)
  | 1, 1, 1, 1 => k * Wi + k * R * ((k1 + k1) * (k * R) * (Wi * Wi))
  | 1, 1, 2, 2 => - (k1 - (k1 + k1 + k1) * (k * (R * R)))
  | 1, 1, 3, 3 => - ((k1 - (k1 + k1 + k1) * (k * (R * R))) * (S * S))
  | 2, 1, 3, 3 => - (R * W * (S * C + S * C))
  | 1, 2, 1, 2 | 1, 2, 2, 1 | 1, 3, 1, 3 | 1, 3, 3, 1 => - (Ri * Ri)
  | 2, 2, 3, 3 => S * S - C * C
  | 2, 3, 2, 3 | 2, 3, 3, 2 => - (Si * Si)
  | _, _, _, _ => k0
  end.
Ltac fin := apply sub_zero; ring [f_R f_S f_C f_W Ha].
Lemma f_inverse i j : (i < 4)%nat -> (j < 4)%nat -> nsum 4 (fun l => g i l * f_gi l j) == kdelta i j.
Proof.
  intros Bi Bj. rewrite sum4. unfold flrw, f_gi, diagonal, kdelta. four i; four j; cbn [Nat.eqb nth]; fin.
Qed.
Lemma f_dg_ok l p q : (l < 4)%nat -> (p < 4)%nat -> (q < 4)%nat -> kdiff (x l) (g p q) == f_dg l p q.
Proof.
  intros Bl Bp Bq. unfold flrw, diagonal.
  four p; four q; cbn [Nat.eqb nth]; deriv; rewrite ?(d_a l Bl), ?(e_R l Bl), ?(e_S l Bl), ?(d_Wi l Bl); four l; cbn [Nat.eqb f_dg]; ring.
Qed.
Lemma f_G_ok i j l : (i < 4)%nat -> (j < 4)%nat -> (l < 4)%nat ->
  nsum 4 (fun p => f_gi i p * (f_dg j p l + f_dg l j p - f_dg p j l)) == f_G i j l + f_G i j l.
Proof.
  intros Bi Bj Bk. rewrite sum4. unfold f_gi, diagonal. four i; four j; four l; cbn [Nat.eqb nth f_dg flrw_gamma]; unfold curvature_function; fin.
Qed.
Lemma f_dG_ok p i j l : (p < 4)%nat -> (i < 4)%nat -> (j < 4)%nat -> (l < 4)%nat -> kdiff (x p) (f_G i j l) == f_dG p i j l.
Proof.
  intros Bp Bi Bj Bk.
  four i; four j; four l; cbn [flrw_gamma]; unfold curvature_function; deriv;
  rewrite ?(d_k p Bp), ?(d_a p Bp), ?(d_ai p Bp), ?(d_a1 p Bp), ?(e_R p Bp), ?(e_Ri p Bp), ?(e_S p Bp), ?(e_Si p Bp), ?(e_C p Bp), ?(d_Wi p Bp); four p; cbn [Nat.eqb f_dG]; fin.
Qed.
Lemma f_rie i j l m : (i < 4)%nat -> (j < 4)%nat -> (l < 4)%nat -> (m < 4)%nat ->
  f_dG l i m j - f_dG m i l j + nsum 4 (fun p => f_G i l p * f_G p m j) - nsum 4 (fun p => f_G i m p * f_G p l j)
  == planes g (flrw_planes (a2 * ai) ((a1 * a1 + k) * (ai * ai))) i j l m.
Proof.
  intros Bi Bj Bl Bm. rewrite !sum4. unfold planes, flrw, diagonal, kdelta, flrw_planes.
  four i; four j; four l; four m; cbn [Nat.eqb nth f_dG flrw_gamma]; unfold curvature_function; fin.
Qed.
End Flrw.
