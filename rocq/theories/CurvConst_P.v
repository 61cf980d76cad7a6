(** Spaces of constant curvature and Einstein spaces. *)
From Verif Require Import Alg Alg_P Arr Arr_P Spec Act_P TensorM WorldM SpecWorld CalcM SpecCalc CurvM SpecCurv SpecDim SpecConst Curv_P Curv2_P CurvDim_P CurvDim2_P.
Local Open Scope K_scope.

Section Const.
Context {A : AlgOps} {L : AlgLaws A} {D : DiffLaws A}.
Add Ring Kring : kring (setoid keq_equiv kring_ext).
Variables (n : nat) (xs : list string) (g gi : nat -> nat -> K).
Hypothesis Hs : symmetric_fun n g.
Hypothesis Hi : inverse_fun n g gi.
Notation Rc := (Ric n xs g gi).
Notation Sc := (Sca n xs g gi).

Section Multiple.
Variable k : K.
Hypothesis Hk : curvature_like n xs g gi k.

Lemma const_ricci i j : (i < n)%nat -> (j < n)%nat -> Rc i j == k * (knat n - k1) * g i j.
Proof.
  intros Bi Bj. unfold Ric, Rie, Gam. rewrite (ricci_lowered n (cx xs) g gi Hi).
  transitivity (nsum n (fun l => nsum n (fun p => k * (g i j * (gi l p * g l p)) - k * (gi l p * g p j) * g i l))).
  { apply nsum_ext. intros l Hl. apply nsum_ext. intros p Hp. rewrite (Hk p i l j Hp Bi Hl Bj). unfold gg. rewrite (Hs p l Hp Hl). ring. }
  transitivity (nsum n (fun l => k * (g i j * nsum n (fun p => gi l p * g l p)) - k * nsum n (fun p => gi l p * g p j) * g i l)).
  { apply nsum_ext. intros l Hl. rewrite nsum_sub. apply ksub_proper; [rewrite nsum_scale; apply kmul_proper; [reflexivity|]; apply nsum_scale|].
    rewrite nsum_scale_r. apply kmul_proper; [apply nsum_scale|reflexivity]. }
  transitivity (nsum n (fun l => k * g i j - kdelta l j * (k * g i l))).
  { apply nsum_ext. intros l Hl. rewrite (gi_g_left n g gi Hs Hi l l Hl Hl), (proj2 Hi l j Hl Bj). unfold kdelta at 1. rewrite Nat.eqb_refl. ring. }
  rewrite nsum_sub, nsum_const. rewrite (nsum_ext n (fun l => kdelta l j * (k * g i l)) (fun l => (k * g i l) * kdelta l j)) by (intros; ring).
  rewrite (nsum_delta_r n j (fun l => k * g i l) Bj). ring.
Qed.
End Multiple.

(** A Ricci tensor that is a multiple of the metric *)
Section Einstein.
Variable k : K.
Hypothesis Hk : forall i j, (i < n)%nat -> (j < n)%nat -> Rc i j == k * g i j.
Lemma multiple_scalar : Sc == k * knat n.
Proof.
  rewrite <- (trace_metric n g gi Hs Hi). unfold Sca, trace_of. rewrite <- nsum_scale. apply nsum_ext. intros i Bi. rewrite <- nsum_scale. apply nsum_ext. intros j Bj.
  rewrite (Hk i j Bi Bj). ring.
Qed.
Lemma multiple_einstein i j : (i < n)%nat -> (j < n)%nat -> Ein n xs g gi i j == k * (k1 - kinvn 2 * knat n) * g i j.
Proof. intros Bi Bj. unfold Ein, einstein_of. rewrite multiple_scalar, (Hk i j Bi Bj). ring. Qed.
End Einstein.

Lemma const_weyl k : curvature_like n xs g gi k -> (3 <= n)%nat -> forall i j l m, (i < n)%nat -> (j < n)%nat -> (l < n)%nat -> (m < n)%nat ->
  Wey n xs g gi i j l m == k0.
Proof.
  intros Hk Hn i j l m Bi Bj Bl Bm. unfold Wey, weyl_of. rewrite (Hk i j l m Bi Bj Bl Bm).
  rewrite (multiple_scalar (k * (knat n - k1)) (const_ricci k Hk)), !(const_ricci k Hk) by assumption. unfold gg.
  destruct (knat_pred n ltac:(lia)) as [P2 P1].
  set (a := kinvn (n - 2)). set (b := kinvn ((n - 2) * (n - 1))).
  assert (E1 : (knat n - k1) * b == a).
  { unfold a. rewrite P1. rewrite <- (kinvn_mul (n - 2) (n - 1)) by lia. unfold b. ring. }
  assert (E2 : (knat n - knat 2) * a == k1).
  { rewrite <- (kinvn_ok (n - 2)) by lia. unfold a. rewrite P2. cbn [knat]. ring. }
  set (u := g i l * g j m). set (v := g i m * g j l).
  transitivity (k * (u - v) * (k1 + (knat n - k1) * b * knat n - knat 2 * ((knat n - k1) * a))).
  { unfold u, v. cbn [knat]. ring. }
  rewrite E1. transitivity (k * (u - v) * (k1 - (knat n - knat 2) * a)); [cbn [knat]; ring|]. rewrite E2. ring.
Qed.

(** An Einstein tensor that is a multiple of the metric *)
Lemma cosmological c : (3 <= n)%nat ->
  (forall i j, (i < n)%nat -> (j < n)%nat -> Ein n xs g gi i j == - c * g i j) <->
  (forall i j, (i < n)%nat -> (j < n)%nat -> Rc i j == knat 2 * kinvn (n - 2) * c * g i j).
Proof.
  intros Hn. destruct (knat_pred n ltac:(lia)) as [P2 P1].
  set (a := kinvn (n - 2)). assert (E2 : (knat n - knat 2) * a == k1).
  { rewrite <- (kinvn_ok (n - 2)) by lia. unfold a. rewrite P2. cbn [knat]. ring. }
  assert (H2 : knat 2 * kinvn 2 == k1) by (apply kinvn_ok; lia).
  split; intros H i j Bi Bj.
  - assert (T : Sc - kinvn 2 * (knat n * Sc) == - c * knat n).
    { rewrite <- (einstein_trace n g gi Hs Hi Rc Sc (reflexivity _)). rewrite <- (trace_metric n g gi Hs Hi). unfold trace_of. rewrite <- nsum_scale. apply nsum_ext. intros p Bp.
      rewrite <- nsum_scale. apply nsum_ext. intros q Bq. transitivity (gi p q * Ein n xs g gi p q); [reflexivity|]. rewrite (H p q Bp Bq). ring. }
    assert (S2 : Sc == knat 2 * a * c * knat n).
    { transitivity ((knat n - knat 2) * a * Sc); [rewrite E2; ring|].
      transitivity (- (knat 2 * a) * (Sc - kinvn 2 * (knat n * Sc)) + (k1 - knat 2 * kinvn 2) * (a * (knat n * Sc))); [ring|].
      rewrite T, H2. ring. }
    specialize (H i j Bi Bj). unfold Ein, einstein_of in H.
    transitivity (Rc i j - kinvn 2 * Sc * g i j + kinvn 2 * Sc * g i j); [ring|]. rewrite H, S2.
    transitivity (((knat 2 * kinvn 2) * a * knat n - k1) * c * g i j); [ring|]. rewrite H2.
    transitivity ((((knat n - knat 2) * a) + knat 2 * a - k1) * c * g i j); [ring|]. rewrite E2. ring.
  - rewrite (multiple_einstein (knat 2 * a * c) H i j Bi Bj).
    transitivity ((knat 2 * a - (knat 2 * kinvn 2) * (knat n * a)) * c * g i j); [ring|]. rewrite H2.
    transitivity (- ((knat n - knat 2) * a) * c * g i j); [ring|]. rewrite E2. ring.
Qed.
End Const.

Section Two.
Context {A : AlgOps} {L : AlgLaws A} {D : DiffLaws A}.
Add Ring Kring2 : kring (setoid keq_equiv kring_ext).
Variables (xs : list string) (g gi : nat -> nat -> K).
Hypothesis Hs : symmetric_fun 2 g.
Hypothesis Hi : inverse_fun 2 g gi.
Lemma two_curvature : curvature_like 2 xs g gi (kinvn 2 * Sca 2 xs g gi).
Proof.
  set (r := lowered 2 g (Rie 2 xs g gi) 0%nat 1%nat 0%nat 1%nat).
  set (e := gi 0%nat 0%nat * gi 1%nat 1%nat - gi 0%nat 1%nat * gi 1%nat 0%nat).
  assert (Hk : forall i j, (i < 2)%nat -> (j < 2)%nat -> Ric 2 xs g gi i j == e * r * g i j) by (intros i j Bi Bj; apply (ricci_two (cx xs) g gi Hs Hi i j Bi Bj)).
  assert (S : kinvn 2 * Sca 2 xs g gi == e * r).
  { rewrite (multiple_scalar 2 xs g gi Hs Hi (e * r) Hk). transitivity (e * r * (knat 2 * kinvn 2)); [ring|]. rewrite kinvn_ok by lia. ring. }
  assert (U : e * (g 0%nat 0%nat * g 1%nat 1%nat - g 0%nat 1%nat * g 1%nat 0%nat) == k1).
  { assert (D1 := det_g g gi Hi 0 0 ltac:(lia) ltac:(lia)). assert (D2 := det_g g gi Hi 0 1 ltac:(lia) ltac:(lia)). cbn [Nat.eqb Nat.sub] in D1, D2. fold e in D1, D2.
    transitivity ((e * g 0%nat 0%nat) * g 1%nat 1%nat - (e * g 0%nat 1%nat) * g 1%nat 0%nat); [ring|]. rewrite D1, D2.
    assert (I := proj2 Hi 1%nat 1%nat ltac:(lia) ltac:(lia)). rewrite nsum2 in I. change (kdelta 1 1) with k1 in I. rewrite <- I.
    rewrite (gi_sym 2 g gi Hs Hi 0 1)%nat, (Hs 1 0)%nat by lia. ring. }
  assert (L1 : forall p i l, lowered 2 g (Rie 2 xs g gi) p i l l == k0) by (intros; apply half_zero, (lowered_last_pair 2 (cx xs) g gi)).
  assert (La : lowered 2 g (Rie 2 xs g gi) 0%nat 1%nat 1%nat 0%nat == - r) by apply (lowered_last_pair 2 (cx xs) g gi).
  assert (Lb : lowered 2 g (Rie 2 xs g gi) 1%nat 0%nat 0%nat 1%nat == - r) by (apply (lowered_first_pair 2 (cx xs) g gi Hs Hi); lia).
  assert (Lc : lowered 2 g (Rie 2 xs g gi) 1%nat 0%nat 1%nat 0%nat == r).
  { assert (Q : lowered 2 g (Rie 2 xs g gi) 1%nat 0%nat 1%nat 0%nat == - lowered 2 g (Rie 2 xs g gi) 1%nat 0%nat 0%nat 1%nat) by apply (lowered_last_pair 2 (cx xs) g gi). rewrite Q, Lb. ring. }
  assert (L2 : forall p k l, (p < 2)%nat -> (k < 2)%nat -> (l < 2)%nat -> lowered 2 g (Rie 2 xs g gi) p p k l == k0).
  { intros p k l Hp Hk' Hl. apply half_zero. apply (lowered_first_pair 2 (cx xs) g gi Hs Hi); lia. }
  assert (Lr : lowered 2 g (Rie 2 xs g gi) 0%nat 1%nat 0%nat 1%nat == e * r * (g 0%nat 0%nat * g 1%nat 1%nat - g 0%nat 1%nat * g 1%nat 0%nat)).
  { fold r. transitivity (r * (e * (g 0%nat 0%nat * g 1%nat 1%nat - g 0%nat 1%nat * g 1%nat 0%nat))); [rewrite U; ring|ring]. }
  fold r in Lr. clear Hk. set (t := e * r) in *. clearbody t.
  intros i j l m Bi Bj Bl Bm. unfold gg. rewrite S.
  destruct (below2 i Bi) as [-> | ->], (below2 j Bj) as [-> | ->], (below2 l Bl) as [-> | ->], (below2 m Bm) as [-> | ->];
    rewrite ?L1, ?L2, ?La, ?Lb, ?Lc by lia; try (fold r; rewrite Lr); ring.
Qed.
End Two.

Section Computed.
Context {A : AlgOps} {L : AlgLaws A} {D : DiffLaws A}.
Add Ring Kring3 : kring (setoid keq_equiv kring_ext).
Local Open Scope nat_scope.
Variables (n : nat) (m c : oid) (name : string) (xs : list string) (g gi : nat -> nat -> K).
Notation session w := (metric_session w n m c name xs g gi).
Notation known w := (known_results n xs g gi w m c name).
Notation gives := (gives n xs g gi).

Lemma const_computed k w : session w -> known w -> curvature_like n xs g gi k ->
  gives (calc_ricci m) m c name [(name ++ " Christoffel"); (name ++ " Riemann"); (name ++ " Ricci Tensor")]%string [-1; -1]%Z
    (fun idx => kmul (kmul k (ksub (knat n) k1)) (g (nth 0 idx 0) (nth 1 idx 0))) w /\
  gives (calc_ricci_scalar m) m c name [(name ++ " Christoffel"); (name ++ " Riemann"); (name ++ " Ricci Tensor"); (name ++ " Ricci Scalar")]%string [] 
    (fun _ => kmul (kmul k (ksub (knat n) k1)) (knat n)) w /\
  gives (calc_einstein m) m c name [(name ++ " Christoffel"); (name ++ " Riemann"); (name ++ " Ricci Tensor"); (name ++ " Ricci Scalar"); (name ++ " Einstein")]%string [-1; -1]%Z
    (fun idx => kmul (kmul (kmul k (ksub (knat n) k1)) (ksub k1 (kmul (kinvn 2) (knat n)))) (g (nth 0 idx 0) (nth 1 idx 0))) w.
Proof.
  intros HS HK Hk. destruct (session_metric n m c name xs g gi w HS) as [Hs Hi]. split; [|split].
  - eapply gives_ext; [|apply ricci_gives; assumption]. intros idx Hx. destruct (range2 n idx Hx) as [B0 B1]. apply (const_ricci n xs g gi Hs Hi k Hk _ _ B0 B1).
  - eapply gives_ext; [|apply scalar_gives; assumption]. intros idx Hx. apply (multiple_scalar n xs g gi Hs Hi _ (const_ricci n xs g gi Hs Hi k Hk)).
  - eapply gives_ext; [|apply einstein_gives; assumption]. intros idx Hx. destruct (range2 n idx Hx) as [B0 B1].
    apply (multiple_einstein n xs g gi Hs Hi _ (const_ricci n xs g gi Hs Hi k Hk) _ _ B0 B1).
Qed.
Lemma const_weyl_computed k w : session w -> known w -> curvature_like n xs g gi k -> 3 <= n ->
  (forall j, In j (insts w) -> named w (name ++ " Ricci Tensor") j -> ~ used w j) ->
  exists t w', calc_weyl m w = (Ok t, w') /\ In t (insts w') /\
    tensor_value w' n m c t [-1; -1; -1; -1]%Z (fun _ => k0) /\ session w' /\ known w'.
Proof.
  intros HS HK Hk Hn Free. destruct (session_metric n m c name xs g gi w HS) as [Hs Hi].
  destruct (weyl_gives n m c name xs g gi w HS HK Hn Free) as (t & w' & E & It & V & S').
  exists t, w'. split; [exact E|]. split; [exact It|]. split; [|exact S'].
  eapply value_ext; [|exact V]. intros idx Hx. destruct (range4 n idx Hx) as (B0 & B1 & B2 & B3).
  apply (const_weyl n xs g gi Hs Hi k Hk Hn); assumption.
Qed.
Lemma cosmological_computed l w : session w -> known w -> 3 <= n ->
  exists t w1 u w2 e r, calc_einstein m w = (Ok t, w1) /\ tensor_value w1 n m c t [-1; -1]%Z e /\
    calc_ricci m w1 = (Ok u, w2) /\ tensor_value w2 n m c u [-1; -1]%Z r /\
    (multiple n g (kopp l) e <-> multiple n g (kmul (kmul (knat 2) (kinvn (n - 2))) l) r).
Proof.
  intros HS HK Hn. destruct (session_metric n m c name xs g gi w HS) as [Hs Hi].
  destruct (einstein_gives n m c name xs g gi w HS HK) as (t & w1 & E1 & _ & V1 & _ & S1 & K1).
  destruct (ricci_gives n m c name xs g gi w1 S1 K1) as (u & w2 & E2 & _ & V2 & _).
  exists t, w1, u, w2, (at2 (Ein n xs g gi)), (at2 (Ric n xs g gi)).
  split; [exact E1|]. split; [exact V1|]. split; [exact E2|]. split; [exact V2|].
  assert (T : forall (f : nat -> nat -> K) k, multiple n g k (at2 f) <-> forall i j, i < n -> j < n -> keq (f i j) (kmul k (g i j))).
  { intros f k. split; [intros H i j Bi Bj; apply (H [i; j]); split; [reflexivity|repeat constructor; assumption]|].
    intros H idx Hx. destruct (range2 n idx Hx). apply H; assumption. }
  rewrite !T. exact (cosmological n xs g gi Hs Hi l Hn).
Qed.
Lemma two_computed w : session w -> known w -> n = 2 ->
  exists t w1 u w2 r s, calc_riemann m w = (Ok t, w1) /\ tensor_value w1 n m c t [1; -1; -1; -1]%Z (at4 r) /\
    calc_ricci_scalar m w1 = (Ok u, w2) /\ tensor_value w2 n m c u [] (fun _ => s) /\
    forall i j p q, i < n -> j < n -> p < n -> q < n -> keq (lowered n g r i j p q) (gg g (kmul (kinvn 2) s) i j p q).
Proof.
  intros HS HK Hn. destruct (session_metric n m c name xs g gi w HS) as [Hs Hi].
  destruct (riemann_gives n m c name xs g gi w HS HK) as (t & w1 & E1 & _ & V1 & _ & S1 & K1).
  destruct (scalar_gives n m c name xs g gi w1 S1 K1) as (u & w2 & E2 & _ & V2 & _).
  exists t, w1, u, w2, (Rie n xs g gi), (Sca n xs g gi).
  split; [exact E1|]. split; [exact V1|]. split; [exact E2|]. split; [exact V2|].
  rewrite Hn in *. exact (two_curvature xs g gi Hs Hi).
Qed.
End Computed.
