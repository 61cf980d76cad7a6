(** What is conserved along geodesics. *)
From Verif Require Import Alg Alg_P Spec TensorM CurvRun_P Curv_P GeodM SpecGeod SpecCurve.
From Verif Require Import Arr Arr_P UtilsM WorldM SpecWorld World_P CalcM SpecCalc CurvM SpecCurv Geod2_P Geod3_P Geod4_P Geod5_P.
Local Open Scope K_scope.

Section Conserved.
Context {A : AlgOps} {L : AlgLaws A} {D : DiffLaws A} {Y : SymLaws A}.
Add Ring Kring : kring (setoid keq_equiv kring_ext).
Variables (n : nat) (xs : list string) (g gi : nat -> nat -> K).
Hypothesis Hs : symmetric_fun n g.
Hypothesis Hinv : inverse_fun n g gi.
Hypothesis Lx : length xs = n.
Hypothesis Hst : static_metric n xs g.
Notation x := (cx xs).
Notation v := (cvel xs).
Notation a := (cacc xs).
Notation p := "lambda"%string.

Lemma along_all : along_curve p xs = xs.
Proof. exact (filter_all "lambda" n xs g Hst). Qed.
Lemma rate_xs e : rate p xs e == kdiff p e + nsum n (fun q => kdiff (x q) e * v q + kdiff (dot (x q)) e * a q).
Proof.
  unfold rate. rewrite along_all. apply kadd_proper; [reflexivity|].
  exact (nsum_xs n xs Lx (fun q => kdiff q e * velocity q + kdiff (dot q) e * acceleration q)).
Qed.
Lemma rate_proper e e' : e == e' -> rate p xs e == rate p xs e'.
Proof.
  intros H. rewrite !rate_xs. apply kadd_proper; [apply kdiff_proper, H|]. apply nsum_ext. intros q _.
  rewrite !(kdiff_proper _ _ _ H). reflexivity.
Qed.
Lemma rate_twice e : rate p xs (e + e) == rate p xs e + rate p xs e.
Proof.
  rewrite !rate_xs. rewrite kdiff_add.
  rewrite (nsum_ext n _ (fun q => (kdiff (x q) e * v q + kdiff (dot (x q)) e * a q) + (kdiff (x q) e * v q + kdiff (dot (x q)) e * a q))).
  - rewrite nsum_add. ring.
  - intros q _. rewrite !kdiff_add. ring.
Qed.
Lemma not_dot s : p <> dot s.
Proof.
  intros E. assert (H := f_equal String.length E). unfold dot in H. rewrite append_length in H. cbn in H.
  destruct s as [|c1 [|c2 [|c3 [|c4 s]]]]; cbn in H; try lia. discriminate E.
Qed.
Lemma p_v j : kdiff p (v j) == k0.
Proof. apply kdiff_sym_other, not_dot. Qed.
Lemma p_g i j : (i < n)%nat -> (j < n)%nat -> kdiff p (g i j) == k0.
Proof. intros Hi Hj. destruct Hst as (_ & _ & _ & H). apply H; assumption. Qed.

Notation ga k := (nsum n (fun i => g k i * a i)).
Notation T k := (nsum n (fun i => nsum n (fun j => kdiff (x i) (g k j) * (v i * v j)))).
Notation U k := (nsum n (fun i => nsum n (fun j => kdiff (x k) (g i j) * (v i * v j)))).

Lemma lowered_value k : (k < n)%nat -> Geo_lowered n xs g gi k == ga k + T k - kinvn 2 * U k.
Proof.
  intros Hk.
  assert (T' : nsum n (fun i => nsum n (fun j => kdiff (x j) (g i k) * (v i * v j))) == T k).
  { rewrite nsum_swap. apply nsum_ext. intros i Hi. apply nsum_ext. intros j Hj. rewrite (kdiff_proper _ _ _ (Hs j k Hj Hk)). ring. }
  unfold Geo_lowered, Geo, geodesic_of.
  transitivity (ga k + nsum n (fun i => nsum n (fun j => nsum n (fun s => g k s * Gam n xs g gi s i j) * (v i * v j)))).
  { transitivity (nsum n (fun s => g k s * a s + g k s * nsum n (fun i => nsum n (fun j => Gam n xs g gi s i j * (v i * v j))))); [apply nsum_ext; intros s _; ring|].
    rewrite nsum_add. apply kadd_proper; [reflexivity|]. symmetry.
    transitivity (nsum n (fun i => nsum n (fun s => nsum n (fun j => g k s * Gam n xs g gi s i j * (v i * v j))))).
    - apply nsum_ext. intros i Hi. rewrite nsum_swap. apply nsum_ext. intros j Hj. rewrite <- nsum_scale_r. reflexivity.
    - rewrite nsum_swap. apply nsum_ext. intros s Hsn. rewrite <- nsum_scale. apply nsum_ext. intros i Hi. rewrite <- nsum_scale. apply nsum_ext. intros j Hj. ring. }
  assert (E : nsum n (fun i => nsum n (fun j => nsum n (fun s => g k s * Gam n xs g gi s i j) * (v i * v j))) == kinvn 2 * (T k + T k - U k)).
  { transitivity (kinvn 2 * (T k + nsum n (fun i => nsum n (fun j => kdiff (x j) (g i k) * (v i * v j))) - U k)); [|rewrite T'; reflexivity].
    rewrite <- nsum_add, <- nsum_sub, <- nsum_scale. apply nsum_ext. intros i Hi. rewrite <- nsum_add, <- nsum_sub, <- nsum_scale. apply nsum_ext. intros j Hj.
    unfold Gam. rewrite (Curv_P.g_G n (cx xs) g gi Hinv k i j Hk). unfold Gl. ring. }
  rewrite E. transitivity (ga k + kinvn 2 * (T k + T k) - kinvn 2 * U k); [ring|rewrite half_double; reflexivity].
Qed.

Lemma diff_lag k : (k < n)%nat -> kdiff (x k) (Lag n xs g) == U k.
Proof.
  intros Hk. unfold Lag, lagrangian_of. rewrite kdiff_nsum. apply nsum_ext. intros i Hi.
  rewrite kdiff_nsum. apply nsum_ext. intros j Hj. rewrite !kdiff_mul. rewrite !(x_v "lambda" n xs g Lx Hst) by assumption. ring.
Qed.
Lemma diff_lag_dot k : (k < n)%nat -> kdiff (dot (x k)) (Lag n xs g) == nsum n (fun j => g k j * v j) + nsum n (fun j => g k j * v j).
Proof.
  intros Hk. rewrite <- (momentum "lambda" n xs g Hs Lx Hst (kinvn 2 * Lag n xs g) k (reflexivity _) Hk).
  rewrite kdiff_halved. symmetry. transitivity (kinvn 2 * (kdiff (dot (x k)) (Lag n xs g) + kdiff (dot (x k)) (Lag n xs g))); [ring|apply half_double].
Qed.
Lemma diff_lag_p : kdiff p (Lag n xs g) == k0.
Proof.
  unfold Lag, lagrangian_of. rewrite kdiff_nsum. apply nsum_zero'. intros i Hi. rewrite kdiff_nsum. apply nsum_zero'. intros j Hj.
  rewrite !kdiff_mul, !p_v, p_g by assumption. ring.
Qed.

(** dL/dt is 2 v^k (g_ks (x''^s + ...)). *)
Lemma energy_rate : rate p xs (Lag n xs g) == (k1 + k1) * nsum n (fun k => v k * Geo_lowered n xs g gi k).
Proof.
  rewrite rate_xs, diff_lag_p.
  set (P := nsum n (fun k => v k * ga k)). set (Q := nsum n (fun k => v k * U k)).
  assert (QT : nsum n (fun k => v k * T k) == Q).
  { unfold Q. transitivity (nsum n (fun k => nsum n (fun i => v i * nsum n (fun j => kdiff (x i) (g k j) * (v k * v j))))).
    - apply nsum_ext. intros k Hk. rewrite <- nsum_scale. apply nsum_ext. intros i Hi. rewrite <- !nsum_scale. apply nsum_ext. intros j Hj. ring.
    - rewrite nsum_swap. apply nsum_ext. intros i Hi. rewrite nsum_scale. reflexivity. }
  transitivity (Q + (P + P)).
  - transitivity (nsum n (fun q => v q * U q + (nsum n (fun j => g q j * v j) + nsum n (fun j => g q j * v j)) * a q)).
    { transitivity (nsum n (fun q => kdiff (x q) (Lag n xs g) * v q + kdiff (dot (x q)) (Lag n xs g) * a q)); [ring|].
      apply nsum_ext. intros q Hq. rewrite diff_lag, diff_lag_dot by assumption. ring. }
    rewrite nsum_add. apply kadd_proper; [reflexivity|].
    assert (PP : nsum n (fun q => nsum n (fun j => g q j * v j) * a q) == P).
    { unfold P. transitivity (nsum n (fun q => nsum n (fun j => g q j * v j * a q))); [apply nsum_ext; intros q Hq; symmetry; apply nsum_scale_r|].
      rewrite nsum_swap. apply nsum_ext. intros j Hj. rewrite <- nsum_scale. apply nsum_ext. intros q Hq. rewrite (Hs q j) by assumption. ring. }
    rewrite <- PP, <- nsum_add. apply nsum_ext. intros q _. ring.
  - transitivity ((k1 + k1) * nsum n (fun k => v k * ga k + v k * T k - kinvn 2 * (v k * U k))).
    2:{ apply kmul_proper; [reflexivity|]. apply nsum_ext. intros k Hk. rewrite lowered_value by exact Hk. ring. }
    rewrite nsum_sub, nsum_add, nsum_scale. fold P Q. rewrite QT.
    transitivity (P + P + Q + Q - kinvn 2 * (Q + Q)); [rewrite half_double; ring|ring].
Qed.

(** d/dt (dL/dv^k) - dL/dx^k is 2 g_ks (x''^s + ...). *)
Lemma momentum_rate k : (k < n)%nat ->
  rate p xs (kdiff (dot (x k)) (Lag n xs g)) == kdiff (x k) (Lag n xs g) + (k1 + k1) * Geo_lowered n xs g gi k.
Proof.
  intros Hk. rewrite (rate_proper _ _ (diff_lag_dot k Hk)), rate_twice.
  set (q := nsum n (fun j => g k j * v j)).
  assert (E : rate p xs q == T k + ga k).
  { rewrite rate_xs. assert (E0 : kdiff p q == k0).
    { unfold q. rewrite kdiff_nsum. apply nsum_zero'. intros j Hj. rewrite kdiff_mul, p_v, p_g by assumption. ring. }
    rewrite E0. rewrite nsum_add.
    transitivity (nsum n (fun i => kdiff (x i) q * v i) + nsum n (fun i => kdiff (dot (x i)) q * a i)); [ring|]. apply kadd_proper.
    - apply nsum_ext. intros i Hi. unfold q. rewrite kdiff_nsum, <- nsum_scale_r. apply nsum_ext. intros j Hj.
      rewrite kdiff_mul, (x_v "lambda" n xs g Lx Hst) by assumption. ring.
    - apply nsum_ext. intros i Hi. unfold q. rewrite kdiff_nsum.
      rewrite (nsum_ext n _ (fun j => kdelta i j * g k j)); [rewrite (nsum_delta_l n i (fun j => g k j)) by exact Hi; reflexivity|].
      intros j Hj. rewrite kdiff_mul, (dot_g "lambda" n xs g Lx Hst), (dot_v "lambda" n xs g Lx Hst) by assumption. ring. }
  rewrite E, diff_lag, lowered_value by exact Hk.
  transitivity (U k + (k1 + k1) * (ga k + T k) - kinvn 2 * (U k + U k)); [rewrite half_double; ring|ring].
Qed.
Lemma cyclic_rate k : (k < n)%nat -> (forall i j, (i < n)%nat -> (j < n)%nat -> kdiff (x k) (g i j) == k0) ->
  rate p xs (kdiff (dot (x k)) (Lag n xs g)) == (k1 + k1) * Geo_lowered n xs g gi k.
Proof.
  intros Hk H. rewrite momentum_rate, diff_lag by exact Hk.
  rewrite (nsum_zero' n (fun i => nsum n (fun j => kdiff (x k) (g i j) * (v i * v j)))); [ring|].
  intros i Hi. apply nsum_zero'. intros j Hj. rewrite H by assumption. ring.
Qed.

Lemma units_back (h : list nat -> K) (e : nat -> K) k : (k <= n)%nat -> is_geodesic n e h ->
  exists u z : nat -> K, forall i, (i < k)%nat -> u i * z i == k1 /\ e i == u i * h [i].
Proof.
  intros Hk H. induction k as [|k IH]; [exists (fun _ => k0), (fun _ => k0); intros i Hi; lia|].
  destruct IH as (u & z & Hu); [lia|]. destruct (H k ltac:(lia)) as (y & y' & E1 & E2).
  exists (fun i => if Nat.eqb i k then y' else u i), (fun i => if Nat.eqb i k then y else z i).
  intros i Hi. destruct (Nat.eqb_spec i k) as [->|N]; [|apply Hu; lia]. split; [rewrite <- E1; ring|].
  rewrite E2. transitivity ((y * y') * e k); [rewrite E1; ring|ring].
Qed.

(** What the results say about the geodesic equations says the same about the rates. *)
Lemma energy_combination h : is_geodesic n (Geo_lowered n xs g gi) h ->
  exists u z : nat -> K, (forall k, (k < n)%nat -> u k * z k == k1) /\
    rate p xs (Lag n xs g) == knat 2 * nsum n (fun k => v k * (u k * h [k])).
Proof.
  intros H. destruct (units_back h _ n ltac:(lia) H) as (u & z & Hu). exists u, z. split; [apply Hu|].
  rewrite energy_rate. apply kmul_proper; [cbn; ring|]. apply nsum_ext. intros k Hk. rewrite (proj2 (Hu k Hk)). reflexivity.
Qed.
Lemma energy_combination' h : is_geodesic n (Geo n xs g gi) h ->
  exists u z : nat -> K, (forall k, (k < n)%nat -> u k * z k == k1) /\
    rate p xs (Lag n xs g) == knat 2 * nsum n (fun k => v k * nsum n (fun s => g k s * (u s * h [s]))).
Proof.
  intros H. destruct (units_back h _ n ltac:(lia) H) as (u & z & Hu). exists u, z. split; [apply Hu|].
  rewrite energy_rate. apply kmul_proper; [cbn; ring|]. apply nsum_ext. intros k Hk. apply kmul_proper; [reflexivity|].
  unfold Geo_lowered. apply nsum_ext. intros s Hsn. rewrite (proj2 (Hu s Hsn)). reflexivity.
Qed.
Lemma cyclic_combination k h : (k < n)%nat -> (forall i j, (i < n)%nat -> (j < n)%nat -> kdiff (x k) (g i j) == k0) ->
  is_geodesic n (Geo_lowered n xs g gi) h -> unit_multiple (rate p xs (kdiff (dot (x k)) (Lag n xs g))) (h [k]).
Proof.
  intros Hk Hc H. destruct (H k Hk) as (u & w & E1 & E2).
  exists ((k1 + k1) * w), (kinvn 2 * u). split.
  - transitivity (kinvn 2 * (u * w + u * w)); [ring|]. rewrite E1. apply half_double.
  - rewrite (cyclic_rate k Hk Hc), E2. transitivity ((k1 + k1) * ((u * w) * Geo_lowered n xs g gi k)); [rewrite E1; ring|ring].
Qed.
End Conserved.

Section Computed.
Local Open Scope nat_scope.
Context {A : AlgOps} {L : AlgLaws A} {D : DiffLaws A} {C : CleanLaws A} {Y : SymLaws A}.
Variables (n : nat) (m c : oid) (name : string) (xs : list string) (g gi : nat -> nat -> K).
Notation session w := (metric_session w n m c name xs g gi).
Notation known w := (known_results n xs g gi w m c name).
Notation curves w := (known_curves n xs g gi w m c name).

Lemma session_facts w : session w -> symmetric_fun n g /\ inverse_fun n g gi /\ length xs = n.
Proof. intros (_ & _ & _ & _ & _ & _ & _ & (oc & _ & E & H) & _ & _ & _ & X & Y' & _). auto. Qed.

(** The results of the three functions, called one after the other. *)
Lemma three_results w coords : session w -> known w -> curves w -> static_metric n xs g -> coords = None \/ coords = Some c ->
  exists l w1 h t w2 e u w3 f, calc_lagrangian m coords w = (Ok l, w1) /\ tensor_value w1 n m c l [] h /\ keq (h []) (Lag n xs g) /\
    calc_geodesic_lagrangian m coords w1 = (Ok t, w2) /\ tensor_value w2 n m c t [1]%Z e /\ is_geodesic n (Geo_lowered n xs g gi) e /\
    calc_geodesic_christoffel m coords w2 = (Ok u, w3) /\ tensor_value w3 n m c u [1]%Z f /\ is_geodesic n (Geo n xs g gi) f.
Proof.
  intros HS HK HC St Co.
  destruct (lagrangian_gives n m c name xs g gi w coords HS HK HC Co) as (l & w1 & h & E1 & _ & _ & V1 & P1 & _ & S1 & K1 & C1).
  destruct (geodesic_lagrangian_gives n m c name xs g gi w1 coords S1 K1 C1 St Co) as (t & w2 & e & E2 & _ & _ & V2 & P2 & _ & S2 & K2 & C2).
  destruct (geodesic_christoffel_gives n m c name xs g gi w2 coords S2 K2 C2 Co) as (u & w3 & f & E3 & _ & _ & V3 & P3 & _).
  exists l, w1, h, t, w2, e, u, w3, f. repeat (split; [assumption|]). assumption.
Qed.

Lemma conserved w coords : session w -> known w -> curves w -> static_metric n xs g -> coords = None \/ coords = Some c ->
  exists l w1 h t w2 e u w3 f, calc_lagrangian m coords w = (Ok l, w1) /\ tensor_value w1 n m c l [] h /\
    calc_geodesic_lagrangian m coords w1 = (Ok t, w2) /\ tensor_value w2 n m c t [1]%Z e /\
    calc_geodesic_christoffel m coords w2 = (Ok u, w3) /\ tensor_value w3 n m c u [1]%Z f /\
    (exists a a', (forall k, k < n -> keq (kmul (a k) (a' k)) k1) /\
       keq (rate "lambda" xs (h [])) (kmul (knat 2) (nsum n (fun k =>
         kmul (velocity (nth k xs ""%string)) (kmul (a k) (e [k])))))) /\
    (exists b b', (forall k, k < n -> keq (kmul (b k) (b' k)) k1) /\
       keq (rate "lambda" xs (h [])) (kmul (knat 2) (nsum n (fun k =>
         kmul (velocity (nth k xs ""%string)) (nsum n (fun s => kmul (g k s) (kmul (b s) (f [s])))))))).
Proof.
  intros HS HK HC St Co. destruct (session_facts w HS) as (Hs & Hi & Lx).
  destruct (three_results w coords HS HK HC St Co) as (l & w1 & h & t & w2 & e & u & w3 & f & X1 & X2 & X3 & X4 & X5 & X6 & X7 & X8 & X9).
  exists l, w1, h, t, w2, e, u, w3, f. repeat (split; [assumption|]).
  assert (R := rate_proper n xs g Lx St _ _ X3). split.
  - destruct (energy_combination n xs g gi Hs Hi Lx St e X6) as (a & a' & H1 & H2). exists a, a'. split; [exact H1|]. rewrite R. exact H2.
  - destruct (energy_combination' n xs g gi Hs Hi Lx St f X9) as (b & b' & H1 & H2). exists b, b'. split; [exact H1|]. rewrite R. exact H2.
Qed.

Lemma conserved_momentum w coords k : session w -> known w -> curves w -> static_metric n xs g -> coords = None \/ coords = Some c ->
  k < n -> (forall i j, i < n -> j < n -> keq (kdiff (nth k xs ""%string) (g i j)) k0) ->
  exists l w1 h t w2 e, calc_lagrangian m coords w = (Ok l, w1) /\ tensor_value w1 n m c l [] h /\
    calc_geodesic_lagrangian m coords w1 = (Ok t, w2) /\ tensor_value w2 n m c t [1]%Z e /\
    unit_multiple (rate "lambda" xs (kdiff (nth k xs "" ++ "dot")%string (h []))) (e [k]).
Proof.
  intros HS HK HC St Co Hk Hc. destruct (session_facts w HS) as (Hs & Hi & Lx).
  destruct (three_results w coords HS HK HC St Co) as (l & w1 & h & t & w2 & e & u & w3 & f & X1 & X2 & X3 & X4 & X5 & X6 & _).
  exists l, w1, h, t, w2, e. repeat (split; [assumption|]).
  destruct (cyclic_combination n xs g gi Hs Hi Lx St k e Hk Hc X6) as (a & b & E1 & E2). exists a, b. split; [exact E1|].
  rewrite <- E2. apply (rate_proper n xs g Lx St), kdiff_proper, X3.
Qed.
End Computed.
