(** The symmetrised derivative of a covector is the Lie derivative of the metric. *)
From Verif Require Import Alg Alg_P Arr Arr_P Spec UtilsM Act_P TensorM WorldM SpecWorld World_P Registry_P CalcM SpecCalc Calc_P CurvM SpecCurv SpecCov SpecDeriv Curv_P CurvRun_P Curv2_P Cov4_P Deriv_P Voss_P SpecKilling.
Local Open Scope nat_scope.

Section KillingAlg.
Context {A : AlgOps} {L : AlgLaws A} {D : DiffLaws A}.
Add Ring Kring : kring (setoid keq_equiv kring_ext).
Variables (n : nat) (x : nat -> string) (g gi : nat -> nat -> K).
Hypothesis Hs : symmetric_fun n g.
Hypothesis Hinv : inverse_fun n g gi.
Notation G := (christoffel_of n x g gi).
Local Open Scope K_scope.

Lemma connection_lowered X T p q : (p < n)%nat -> (q < n)%nat -> lowered_vector n g X T ->
  nsum n (fun d => G d p q * T [d]) == nsum n (fun k => X k * Gl x g k p q).
Proof.
  intros Hp Hq HX. transitivity (nsum n (fun d => nsum n (fun k => G d p q * (g d k * X k)))).
  { apply nsum_ext. intros d Hd. rewrite (HX d Hd), <- nsum_scale. reflexivity. }
  rewrite nsum_swap. apply nsum_ext. intros k Hk. rewrite <- (Curv_P.g_G n x g gi Hinv k p q Hk), <- nsum_scale.
  apply nsum_ext. intros d Hd. rewrite (Hs d k Hd Hk). ring.
Qed.
Lemma Gl_twice k p q : (k < n)%nat -> (p < n)%nat -> (q < n)%nat ->
  Gl x g k p q + Gl x g k q p == kdiff (x p) (g q k) + kdiff (x q) (g p k) - kdiff (x k) (g p q).
Proof.
  intros Hk Hp Hq. rewrite (Gl_sym n x g Hs k q p) by assumption. unfold Gl. rewrite (g_diff n x g Hs p k q) by assumption.
  etransitivity; [|apply half_double]. ring.
Qed.
Lemma killing X T p q : (p < n)%nat -> (q < n)%nat -> lowered_vector n g X T ->
  covariant_of n x G [-1]%Z T p [q] + covariant_of n x G [-1]%Z T q [p] == lie_metric n x g X p q.
Proof.
  intros Hp Hq HX. unfold covariant_of. cbn [length]. rewrite !nsum_S, !nsum_none. cbn [nth Z.eqb Pos.eqb]. unfold replaced. cbn [firstn skipn app].
  rewrite (connection_lowered X T p q Hp Hq HX), (connection_lowered X T q p Hq Hp HX).
  assert (E : forall a b, (b < n)%nat -> kdiff (x a) (T [b]) == nsum n (fun k => kdiff (x a) (g b k) * X k + g b k * kdiff (x a) (X k))).
  { intros a b Hb. rewrite (kdiff_proper (x a) _ _ (HX b Hb)), kdiff_nsum. apply nsum_ext. intros k _. apply kdiff_mul. }
  rewrite (E p q Hq), (E q p Hp).
  transitivity (nsum n (fun k => kdiff (x p) (g q k) * X k + g q k * kdiff (x p) (X k)) + nsum n (fun k => kdiff (x q) (g p k) * X k + g p k * kdiff (x q) (X k))
    - (nsum n (fun k => X k * Gl x g k p q) + nsum n (fun k => X k * Gl x g k q p))); [ring|].
  rewrite <- !nsum_add, <- nsum_sub. apply nsum_ext. intros k Hk.
  transitivity (X k * (kdiff (x p) (g q k) + kdiff (x q) (g p k) - (Gl x g k p q + Gl x g k q p)) + g q k * kdiff (x p) (X k) + g p k * kdiff (x q) (X k)); [ring|].
  rewrite (Gl_twice k p q Hk Hp Hq), (Hs q k Hq Hk). ring.
Qed.
Lemma lie_coordinate k p q : (k < n)%nat -> (p < n)%nat -> (q < n)%nat -> lie_metric n x g (fun a => kdelta k a) p q == kdiff (x k) (g p q).
Proof.
  intros Hk Hp Hq. unfold lie_metric. rewrite <- (nsum_delta_l n k (fun a => kdiff (x a) (g p q)) Hk). apply nsum_ext. intros a Ha.
  unfold kdelta. destruct (k =? a)%nat; rewrite ?kdiff_1, ?kdiff_0; ring.
Qed.
Lemma coordinate_lowered k T : (k < n)%nat -> (forall q, (q < n)%nat -> T [q] == g q k) -> lowered_vector n g (fun a => kdelta k a) T.
Proof. intros Hk HT q Hq. rewrite (HT q Hq). rewrite <- (nsum_delta_l n k (fun a => g q a) Hk). apply nsum_ext. intros a Ha. ring. Qed.
End KillingAlg.

Section KillingRun.
Context {A : AlgOps} {L : AlgLaws A} {D : DiffLaws A}.
Variables (n : nat) (m c : oid) (name : string) (xs : list string) (g gi : nat -> nat -> K).
Notation session w := (metric_session w n m c name xs g gi).
Notation known w := (known_results n xs g gi w m c name).
Notation value w := (tensor_value w n m c).
Notation yields := (yields n xs g gi).

Lemma killing_computed w t h X a b : session w -> known w -> value w t [-1]%Z h -> ~ named w "TEMP" t -> lowered_vector n g X h ->
  a <> b -> two_letters_free [a; b] ->
  exists f, yields (derivative t a [b]) m c name [(name ++ " Christoffel")%string] [a; b] [-1; -1]%Z f w /\
    forall p q, p < n -> q < n -> keq (kadd (f [p; q]) (f [q; p])) (lie_metric n (cx xs) g X p q).
Proof.
  intros HS Ka Vt Nt HX Nab H2. destruct (Deriv_P.session_sym n m c name xs g gi w HS) as [Sg Ig]. eexists. split.
  - exact (gradient_value n m c name xs g gi w t [-1]%Z h [b] a HS Ka Vt Nt ltac:(constructor; [auto|constructor]) ltac:(repeat constructor; cbn; intuition congruence) eq_refl H2).
  - intros p q Hp Hq. cbn [nth tl]. exact (killing n (cx xs) g gi Sg Ig X h p q Hp Hq HX).
Qed.
Lemma killing_coordinate w t h k a b : session w -> known w -> value w t [-1]%Z h -> ~ named w "TEMP" t ->
  k < n -> (forall q, q < n -> keq (h [q]) (g q k)) -> a <> b -> two_letters_free [a; b] ->
  exists f, yields (derivative t a [b]) m c name [(name ++ " Christoffel")%string] [a; b] [-1; -1]%Z f w /\
    forall p q, p < n -> q < n -> keq (kadd (f [p; q]) (f [q; p])) (kdiff (nth k xs ""%string) (g p q)).
Proof.
  intros HS Ka Vt Nt Hk HX Nab H2.
  destruct (killing_computed w t h (fun j => kdelta k j) a b HS Ka Vt Nt (coordinate_lowered n g k h Hk HX) Nab H2) as (f & Y & E).
  exists f. split; [exact Y|]. intros p q Hp Hq. rewrite (E p q Hp Hq). exact (lie_coordinate n (cx xs) g k p q Hk Hp Hq).
Qed.
End KillingRun.
