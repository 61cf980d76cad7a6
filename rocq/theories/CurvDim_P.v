(** Curvature in two and three dimensions, and curvature that vanishes. *)
From Verif Require Import Alg Alg_P Spec SpecCurv Curv_P.
Local Open Scope K_scope.

Section Dim.
Context {A : AlgOps} {L : AlgLaws A} {D : DiffLaws A}.
Add Ring Kring : kring (setoid keq_equiv kring_ext).

Lemma nsum2 f : nsum 2 f == f 0%nat + f 1%nat.
Proof. cbn. ring. Qed.
Lemma nsum3 f : nsum 3 f == f 0%nat + f 1%nat + f 2%nat.
Proof. cbn. ring. Qed.
Lemma below2 i : (i < 2)%nat -> i = 0%nat \/ i = 1%nat.
Proof. lia. Qed.
Lemma below3 i : (i < 3)%nat -> i = 0%nat \/ i = 1%nat \/ i = 2%nat.
Proof. lia. Qed.

(** *** Two dimensions *)
Lemma adjugate2 a b c e g00 g01 g10 g11 :
  a * g00 + b * g10 == k1 -> a * g01 + b * g11 == k0 -> c * g00 + e * g10 == k0 -> c * g01 + e * g11 == k1 ->
  (a * e - b * c) * g00 == e /\ (a * e - b * c) * g01 == - b /\ (a * e - b * c) * g10 == - c /\
  (a * e - b * c) * g11 == a.
Proof.
  intros H0 H1 H2 H3. repeat split.
  - transitivity (e * (a * g00 + b * g10) - b * (c * g00 + e * g10)); [ring|]. rewrite H0, H2. ring.
  - transitivity (e * (a * g01 + b * g11) - b * (c * g01 + e * g11)); [ring|]. rewrite H1, H3. ring.
  - transitivity (a * (c * g00 + e * g10) - c * (a * g00 + b * g10)); [ring|]. rewrite H0, H2. ring.
  - transitivity (a * (c * g01 + e * g11) - c * (a * g01 + b * g11)); [ring|]. rewrite H1, H3. ring.
Qed.

Section Two.
Variables (x : nat -> string) (g gi : nat -> nat -> K).
Hypothesis Hs : symmetric_fun 2 g.
Hypothesis Hi : inverse_fun 2 g gi.
Notation G := (christoffel_of 2 x g gi).
Notation R := (riemann_of 2 x G).
Notation low := (lowered 2 g R).
Notation Rc := (ricci_of 2 R).
Notation det := (gi 0%nat 0%nat * gi 1%nat 1%nat - gi 0%nat 1%nat * gi 1%nat 0%nat).

Lemma det_g i j : (i < 2)%nat -> (j < 2)%nat ->
  det * g i j == (if Nat.eqb i j then gi (1 - i)%nat (1 - j)%nat else - gi i j).
Proof.
  intros Bi Bj. pose proof (proj2 Hi) as H. 
  assert (I : forall i j, (i < 2)%nat -> (j < 2)%nat -> gi i 0%nat * g 0%nat j + gi i 1%nat * g 1%nat j == kdelta i j).
  { intros u v Hu Hv. rewrite <- (H u v Hu Hv). rewrite nsum2. reflexivity. }
  destruct (adjugate2 (gi 0 0) (gi 0 1) (gi 1 0) (gi 1 1) (g 0 0) (g 0 1) (g 1 0) (g 1 1))%nat as (E0 & E1 & E2 & E3);
    [apply (I 0 0)%nat; lia|apply (I 0 1)%nat; lia|apply (I 1 0)%nat; lia|apply (I 1 1)%nat; lia|].
  destruct (below2 i Bi) as [-> | ->], (below2 j Bj) as [-> | ->]; cbn; assumption.
Qed.

(** In two dimensions the Ricci tensor is a multiple of the metric. *)
Lemma ricci_two i j : (i < 2)%nat -> (j < 2)%nat ->
  Rc i j == det * low 0%nat 1%nat 0%nat 1%nat * g i j.
Proof.
  intros Bi Bj. transitivity (low 0%nat 1%nat 0%nat 1%nat * (det * g i j)); [|ring].
  rewrite (det_g i j Bi Bj). rewrite (ricci_lowered 2 x g gi Hi). rewrite nsum2, !nsum2.
  set (r := low 0%nat 1%nat 0%nat 1%nat).
  assert (L1 : forall p i l, low p i l l == k0).
  { intros p k l. apply half_zero. apply (lowered_last_pair 2 x g gi). }
  assert (La : low 0%nat 1%nat 1%nat 0%nat == - r) by apply (lowered_last_pair 2 x g gi).
  assert (Lb : low 1%nat 0%nat 0%nat 1%nat == - r) by (apply (lowered_first_pair 2 x g gi Hs Hi); lia).
  assert (Lc : low 1%nat 0%nat 1%nat 0%nat == r).
  { rewrite (lowered_last_pair 2 x g gi), Lb. ring. }
  assert (L2 : forall p k l, (p < 2)%nat -> (k < 2)%nat -> (l < 2)%nat -> low p p k l == k0).
  { intros p k l Hp Hk Hl. apply half_zero. apply (lowered_first_pair 2 x g gi Hs Hi); lia. }
  destruct (below2 i Bi) as [-> | ->], (below2 j Bj) as [-> | ->]; cbn [Nat.eqb Nat.sub].
  - rewrite !L1, (L2 0%nat 1%nat 0%nat), Lc by lia. ring.
  - rewrite !L1, (L2 0%nat 0%nat 1%nat), Lb by lia. ring.
  - rewrite !L1, (L2 1%nat 1%nat 0%nat), La by lia. ring.
  - rewrite !L1, (L2 1%nat 0%nat 1%nat) by lia. fold r. ring.
Qed.

(** ... hence the Einstein tensor vanishes. *)
Lemma einstein_two i j : (i < 2)%nat -> (j < 2)%nat -> einstein_of g Rc (trace_of 2 gi Rc) i j == k0.
Proof.
  intros Bi Bj. set (f := det * low 0%nat 1%nat 0%nat 1%nat).
  assert (E : trace_of 2 gi Rc == f * knat 2).
  { rewrite <- (trace_metric 2 g gi Hs Hi). unfold trace_of. rewrite !nsum2.
    rewrite !ricci_two by lia. fold f. ring. }
  unfold einstein_of. rewrite E, ricci_two by assumption. fold f.
  transitivity (f * g i j * (k1 - knat 2 * kinvn 2)); [ring|].
  rewrite kinvn_ok by lia. ring.
Qed.
End Two.

(** *** Three dimensions *)
Definition det3 (m : nat -> nat -> K) : K :=
  m 0%nat 0%nat * (m 1%nat 1%nat * m 2%nat 2%nat - m 1%nat 2%nat * m 2%nat 1%nat)
  - m 0%nat 1%nat * (m 1%nat 0%nat * m 2%nat 2%nat - m 1%nat 2%nat * m 2%nat 0%nat)
  + m 0%nat 2%nat * (m 1%nat 0%nat * m 2%nat 1%nat - m 1%nat 1%nat * m 2%nat 0%nat).

Lemma det3_mul g gi : inverse_fun 3 g gi -> det3 g * det3 gi == k1.
Proof.
  intros Hi.
  assert (I : forall i j, (i < 3)%nat -> (j < 3)%nat ->
    g i 0%nat * gi 0%nat j + g i 1%nat * gi 1%nat j + g i 2%nat * gi 2%nat j == kdelta i j).
  { intros u v Hu Hv. rewrite <- (proj1 Hi u v Hu Hv). rewrite nsum3. reflexivity. }
  transitivity (det3 (fun i j => g i 0%nat * gi 0%nat j + g i 1%nat * gi 1%nat j + g i 2%nat * gi 2%nat j)).
  { unfold det3. ring. }
  unfold det3. rewrite !I by lia. cbn. ring.
Qed.

(** The pair of indices that the index [e] stands for. *)
Definition fst3 (e : nat) : nat := match e with 0%nat => 1%nat | 1%nat => 2%nat | _ => 0%nat end.
Definition snd3 (e : nat) : nat := match e with 0%nat => 2%nat | 1%nat => 0%nat | _ => 1%nat end.

Definition eps3 (a b e : nat) : K :=
  match a, b, e with
  | 0, 1, 2 => k1 | 1, 2, 0 => k1 | 2, 0, 1 => k1 | 1, 0, 2 => - k1 | 2, 1, 0 => - k1 | 0, 2, 1 => - k1
  | _, _, _ => k0
  end%nat.
Definition tr3 (h N : nat -> nat -> K) (b d : nat) : K :=
  nsum 3 (fun a => nsum 3 (fun c => h a c * nsum 3 (fun e => nsum 3 (fun f => eps3 a b e * eps3 c d f * N e f)))).

Lemma tr3_value h N b d : (b < 3)%nat -> (d < 3)%nat -> tr3 h N b d ==
  h (fst3 b) (fst3 d) * N (snd3 b) (snd3 d) - h (fst3 b) (snd3 d) * N (snd3 b) (fst3 d)
  - h (snd3 b) (fst3 d) * N (fst3 b) (snd3 d) + h (snd3 b) (snd3 d) * N (fst3 b) (fst3 d).
Proof.
  intros Hb Hd. destruct (below3 b Hb) as [-> |[-> | ->]], (below3 d Hd) as [-> |[-> | ->]];
    unfold tr3; rewrite !nsum3; cbn [eps3 fst3 snd3]; ring.
Qed.

Lemma traceless_three (W : nat -> nat -> nat -> nat -> K) (h : nat -> nat -> K) y :
  (forall a b c d, (a < 3)%nat -> (b < 3)%nat -> (c < 3)%nat -> (d < 3)%nat -> W a b c d == - W b a c d) ->
  (forall a b c d, (a < 3)%nat -> (b < 3)%nat -> (c < 3)%nat -> (d < 3)%nat -> W a b c d == - W a b d c) ->
  symmetric_fun 3 h -> y * det3 h == k1 ->
  (forall b d, (b < 3)%nat -> (d < 3)%nat -> nsum 3 (fun a => nsum 3 (fun c => h a c * W a b c d)) == k0) ->
  forall a b c d, (a < 3)%nat -> (b < 3)%nat -> (c < 3)%nat -> (d < 3)%nat -> W a b c d == k0.
Proof.
  intros H1 H2 Hh Hy Ht.
  pose (N := fun e f => W (fst3 e) (snd3 e) (fst3 f) (snd3 f)).
  assert (E1 : forall a b c d, (a < 3)%nat -> (b < 3)%nat -> (c < 3)%nat -> (d < 3)%nat ->
    W a b c d == nsum 3 (fun e => eps3 a b e * W (fst3 e) (snd3 e) c d)).
  { intros a b c d Ha Hb Hc Hd. rewrite nsum3.
    assert (Z : forall a, (a < 3)%nat -> W a a c d == k0) by (intros u Hu; apply half_zero, H1; assumption).
    destruct (below3 a Ha) as [-> |[-> | ->]], (below3 b Hb) as [-> |[-> | ->]]; cbn;
      try (rewrite Z by lia; ring); try ring.
    - rewrite (H1 0 2)%nat by lia. ring.
    - rewrite (H1 1 0)%nat by lia. ring.
    - rewrite (H1 2 1)%nat by lia. ring. }
  assert (E2 : forall a b c d, (a < 3)%nat -> (b < 3)%nat -> (c < 3)%nat -> (d < 3)%nat ->
    W a b c d == nsum 3 (fun f => eps3 c d f * W a b (fst3 f) (snd3 f))).
  { intros a b c d Ha Hb Hc Hd. rewrite nsum3.
    assert (Z : forall c, (c < 3)%nat -> W a b c c == k0) by (intros u Hu; apply half_zero, H2; assumption).
    destruct (below3 c Hc) as [-> |[-> | ->]], (below3 d Hd) as [-> |[-> | ->]]; cbn;
      try (rewrite Z by lia; ring); try ring.
    - rewrite (H2 a b 0 2)%nat by lia. ring.
    - rewrite (H2 a b 1 0)%nat by lia. ring.
    - rewrite (H2 a b 2 1)%nat by lia. ring. }
  assert (E : forall a b c d, (a < 3)%nat -> (b < 3)%nat -> (c < 3)%nat -> (d < 3)%nat ->
    W a b c d == nsum 3 (fun e => nsum 3 (fun f => eps3 a b e * eps3 c d f * N e f))).
  { intros a b c d Ha Hb Hc Hd. rewrite (E1 a b c d) by assumption. rewrite !nsum3.
    rewrite (E2 (fst3 0) (snd3 0) c d)%nat, (E2 (fst3 1) (snd3 1) c d)%nat, (E2 (fst3 2) (snd3 2) c d)%nat by (cbn; lia).
    rewrite !nsum3. unfold N. ring. }
  pose (T := tr3 h N).
  assert (T0 : forall b d, (b < 3)%nat -> (d < 3)%nat -> T b d == k0).
  { intros b d Hb Hd. rewrite <- (Ht b d Hb Hd). unfold T, tr3. apply nsum_ext. intros a Ha. apply nsum_ext. intros c Hc.
    rewrite (E a b c d) by assumption. reflexivity. }
  assert (S01 : h 1%nat 0%nat == h 0%nat 1%nat) by (apply Hh; lia).
  assert (S02 : h 2%nat 0%nat == h 0%nat 2%nat) by (apply Hh; lia).
  assert (S12 : h 2%nat 1%nat == h 1%nat 2%nat) by (apply Hh; lia).
  assert (D3 : forall e f, (e < 3)%nat -> (f < 3)%nat ->
    (k1 + k1) * det3 h * N f e == h e f * nsum 3 (fun b => nsum 3 (fun d => h b d * T b d))
      - (k1 + k1) * nsum 3 (fun b => nsum 3 (fun d => h e b * h f d * T b d))).
  { intros e f He Hf. unfold T. rewrite !nsum3. rewrite !tr3_value by lia. cbn [fst3 snd3]. unfold det3.
    destruct (below3 e He) as [-> |[-> | ->]], (below3 f Hf) as [-> |[-> | ->]];
      rewrite ?S01, ?S02, ?S12; ring. }
  assert (N0 : forall e f, (e < 3)%nat -> (f < 3)%nat -> N f e == k0).
  { intros e f He Hf. specialize (D3 e f He Hf). rewrite !nsum3 in D3. rewrite !T0 in D3 by lia.
    rewrite <- (half_double (N f e)).
    transitivity (kinvn 2 * (y * ((k1 + k1) * det3 h * N f e))).
    { transitivity (kinvn 2 * ((y * det3 h) * (N f e + N f e))); [rewrite Hy; ring|ring]. }
    rewrite D3. ring. }
  intros a b c d Ha Hb Hc Hd. rewrite E by assumption. rewrite !nsum3. rewrite !N0 by lia. ring.
Qed.

Lemma weyl_three x g gi i k l m : symmetric_fun 3 g -> inverse_fun 3 g gi ->
  (i < 3)%nat -> (k < 3)%nat -> (l < 3)%nat -> (m < 3)%nat ->
  let R := riemann_of 3 x (christoffel_of 3 x g gi) in
  weyl_of 3 g (lowered 3 g R) (ricci_of 3 R) (trace_of 3 gi (ricci_of 3 R)) i k l m == k0.
Proof.
  intros Hs Hi Bi Bk Bl Bm R. 
  apply (traceless_three (weyl_of 3 g (lowered 3 g R) (ricci_of 3 R) (trace_of 3 gi (ricci_of 3 R))) gi (det3 g)); try assumption.
  - intros. apply (weyl_first_pair 3 x g gi Hs Hi); assumption.
  - intros. apply (weyl_last_pair 3 x g gi).
  - apply (gi_sym 3 g gi Hs Hi).
  - apply det3_mul, Hi.
  - intros b d Hb Hd. apply (weyl_trace13 3 x g gi Hs Hi); lia.
Qed.

(** *** Vacuum *)
Section Vacuum.
Variables (n : nat) (g gi T : nat -> nat -> K).
Hypothesis Hs : symmetric_fun n g.
Hypothesis Hi : inverse_fun n g gi.
Notation S := (trace_of n gi T).

Lemma trace_zero (U : nat -> nat -> K) : (forall i j, (i < n)%nat -> (j < n)%nat -> U i j == k0) -> trace_of n gi U == k0.
Proof.
  intros H. unfold trace_of. apply nsum_zero'. intros i Bi. apply nsum_zero'. intros j Bj. rewrite H by assumption. ring.
Qed.

Lemma einstein_vacuum : n <> 2%nat ->
  (forall i j, (i < n)%nat -> (j < n)%nat -> einstein_of g T S i j == k0) <->
  (forall i j, (i < n)%nat -> (j < n)%nat -> T i j == k0).
Proof.
  intros Hn. split; intros H i j Bi Bj.
  - assert (S0 : S == k0).
    { pose proof (einstein_trace n g gi Hs Hi T S (reflexivity _)) as E.
      rewrite (trace_zero _ H) in E.
      assert (Z : knat 2 * S - knat n * S == k0).
      { transitivity (knat 2 * (S - kinvn 2 * (knat n * S))).
        { transitivity (knat 2 * S - (knat 2 * kinvn 2) * (knat n * S)); [rewrite kinvn_ok by lia|]; ring. }
        rewrite <- E. ring. }
      destruct (Nat.lt_trichotomy n 2) as [B|[B|B]]; [|contradiction|].
      - assert (n = 1%nat) as B1 by lia. assert (B2 : knat n = knat 1) by (rewrite B1; reflexivity). rewrite B2 in Z.
        transitivity (knat 2 * S - knat 1 * S); [cbn; ring|exact Z].
      - destruct (knat_pred n ltac:(lia)) as [P _].
        transitivity (- kinvn (n - 2) * (knat 2 * S - knat n * S)); [|rewrite Z; ring].
        rewrite P. transitivity (knat (n - 2) * kinvn (n - 2) * S); [rewrite kinvn_ok by lia; ring|].
        cbn [knat]. ring. }
    specialize (H i j Bi Bj). unfold einstein_of in H. rewrite S0 in H. rewrite <- H. ring.
  - unfold einstein_of. rewrite (trace_zero T H), H by assumption. ring.
Qed.
End Vacuum.
End Dim.
