(** Lagrangians and geodesics of metrics that differ by a factor. *)
From Verif Require Import Alg Alg_P Arr Arr_P Spec Act_P TensorM WorldM SpecWorld CalcM SpecCalc CurvM SpecCurv SpecDim SpecConst SpecScale Curv_P Curv2_P CurvDim_P CurvDim2_P CurvConst_P Scale_P Conf_P GeodM SpecGeod SpecLight CurvRun_P Geod5_P GeodCons_P.
Local Open Scope K_scope.

Section Light.
Context {A : AlgOps} {L : AlgLaws A} {D : DiffLaws A}.
Add Ring Kring : kring (setoid keq_equiv kring_ext).
Variables (n : nat) (xs : list string) (g gi g' gi' : nat -> nat -> K) (a b : K).
Hypothesis Hs : symmetric_fun n g.
Hypothesis Hi : inverse_fun n g gi.
Hypothesis Hi' : inverse_fun n g' gi'.
Hypothesis Ha : times_metric n a g g'.
Hypothesis Hab : a * b == k1.
Notation e := (kinvn 2).
Notation x := (cx xs).
Notation da := (fun i => kdiff (x i) a).
Notation grad := (gradient n xs gi a).

Lemma lagrangian_times v : lagrangian_of n g' v == a * lagrangian_of n g v.
Proof.
  unfold lagrangian_of. rewrite <- nsum_scale. apply nsum_ext. intros i Bi. rewrite <- nsum_scale. apply nsum_ext. intros j Bj.
  rewrite (Ha i j Bi Bj). ring.
Qed.

Lemma gamma_conf s i j : (s < n)%nat -> (i < n)%nat -> (j < n)%nat ->
  Gam n xs g' gi' s i j == Gam n xs g gi s i j + e * b * (da i * kdelta s j + da j * kdelta s i - g i j * grad s).
Proof.
  intros Bs Bi Bj. unfold Gam, christoffel_of.
  rewrite <- (proj2 Hi s j Bs Bj), <- (gi_g_left n g gi Hs Hi s i Bs Bi). unfold gradient.
  rewrite <- !nsum_scale, <- nsum_add, <- nsum_sub, <- nsum_scale, <- nsum_add. apply nsum_ext. intros l Bl.
  rewrite (inverse_times n g gi g' gi' a b Hi Hi' Ha Hab s l Bs Bl).
  rewrite (kdiff_proper _ _ _ (Ha l j Bl Bj)), (kdiff_proper _ _ _ (Ha i l Bi Bl)), (kdiff_proper _ _ _ (Ha i j Bi Bj)), !kdiff_mul.
  change (nth l xs ""%string) with (x l).
  transitivity (a * b * (e * (gi s l * (kdiff (x i) (g l j) + kdiff (x j) (g i l) - kdiff (x l) (g i j)))) +
    e * b * (da i * (gi s l * g l j) + da j * (gi s l * g i l) - g i j * (gi s l * kdiff (x l) a))); [ring|].
  rewrite Hab. ring.
Qed.

Lemma twice_half y : e * y + e * y == y.
Proof. transitivity (e * (y + y)); [ring|]. apply half_double. Qed.

Lemma gamma_sum (v : nat -> K) s : (s < n)%nat ->
  nsum n (fun i => nsum n (fun j => Gam n xs g' gi' s i j * (v i * v j))) ==
  nsum n (fun i => nsum n (fun j => Gam n xs g gi s i j * (v i * v j))) +
  (b * (nsum n (fun i => da i * v i) * v s) - e * b * (grad s * lagrangian_of n g v)).
Proof.
  intros Bs.
  transitivity (nsum n (fun i => nsum n (fun j => Gam n xs g gi s i j * (v i * v j)) +
    (e * b * (da i * v i * v s) + e * b * (v i * kdelta i s * nsum n (fun j => da j * v j)) - e * b * grad s * nsum n (fun j => g i j * (v i * v j))))).
  { apply nsum_ext. intros i Bi.
    transitivity (nsum n (fun j => Gam n xs g gi s i j * (v i * v j)) +
      (nsum n (fun j => e * b * (da i * v i) * (v j * kdelta j s)) + nsum n (fun j => e * b * (v i * kdelta i s) * (da j * v j)) - nsum n (fun j => e * b * grad s * (g i j * (v i * v j))))).
    { rewrite <- nsum_add, <- nsum_sub, <- nsum_add. apply nsum_ext. intros j Bj. rewrite (gamma_conf s i j Bs Bi Bj).
      assert (E : forall p q, kdelta p q = @kdelta A q p) by (intros p q; unfold kdelta; rewrite Nat.eqb_sym; reflexivity).
      rewrite (E s j), (E s i). ring. }
    rewrite !nsum_scale. rewrite (nsum_delta_r n s v Bs). ring. }
  rewrite nsum_add, nsum_sub, nsum_add, !nsum_scale.
  rewrite (nsum_scale_r n (v s) (fun i => da i * v i)), (nsum_scale_r n (nsum n (fun j => da j * v j)) (fun i => v i * kdelta i s)), (nsum_delta_r n s v Bs).
  fold (lagrangian_of n g v).
  rewrite <- (twice_half (b * (nsum n (fun i => da i * v i) * v s))). ring.
Qed.

Lemma geo_conf s : (s < n)%nat ->
  Geo n xs g' gi' s == Geo n xs g gi s + (b * (change_along n xs a * velocity (nth s xs ""%string)) - e * b * (grad s * Lag n xs g)).
Proof.
  intros Bs. unfold Geo, geodesic_of. rewrite (gamma_sum (cvel xs) s Bs). unfold change_along, Lag, cvel, cx. ring.
Qed.

Lemma time_sum (G : nat -> nat -> nat -> K) v s :
  nsum n (fun i => nsum n (fun j => (G s i j - G 0%nat i j * v s) * (v i * v j))) ==
  nsum n (fun i => nsum n (fun j => G s i j * (v i * v j))) - v s * nsum n (fun i => nsum n (fun j => G 0%nat i j * (v i * v j))).
Proof.
  rewrite <- nsum_scale, <- nsum_sub. apply nsum_ext. intros i _. rewrite <- nsum_scale, <- nsum_sub. apply nsum_ext. intros j _. ring.
Qed.
Lemma geo_time_conf s : (s < n)%nat ->
  Geo_time n xs g' gi' s == Geo_time n xs g gi s - e * b * ((grad s - tvel xs s * grad 0%nat) * lagrangian_of n g (tvel xs)).
Proof.
  intros Bs. unfold Geo_time, time_geodesic_of. rewrite !time_sum.
  rewrite (gamma_sum (tvel xs) s Bs), (gamma_sum (tvel xs) 0%nat ltac:(lia)).
  change (tvel xs 0%nat) with (@k1 A). ring.
Qed.
End Light.

Section Const.
Context {A : AlgOps} {L : AlgLaws A} {D : DiffLaws A}.
Add Ring Kring2 : kring (setoid keq_equiv kring_ext).
Variables (n : nat) (xs : list string) (g gi g' gi' : nat -> nat -> K) (a b : K).
Hypothesis Hx : length xs = n.
Hypothesis Hs : symmetric_fun n g.
Hypothesis Hi : inverse_fun n g gi.
Hypothesis Hi' : inverse_fun n g' gi'.
Hypothesis Ha : times_metric n a g g'.
Hypothesis Hab : a * b == k1.
Hypothesis Hc : constant xs a.
Lemma dconst i : (i < n)%nat -> kdiff (nth i xs ""%string) a == k0.
Proof. intros Bi. apply Hc, nth_In. rewrite Hx. exact Bi. Qed.
Lemma grad_const s : gradient n xs gi a s == k0.
Proof. unfold gradient. rewrite <- (nsum_zero n). apply nsum_ext. intros l Bl. rewrite (dconst l Bl). ring. Qed.
Lemma along_const : change_along n xs a == k0.
Proof. unfold change_along. rewrite <- (nsum_zero n). apply nsum_ext. intros l Bl. rewrite (dconst l Bl). ring. Qed.
Lemma geo_const s : (s < n)%nat -> Geo n xs g' gi' s == Geo n xs g gi s.
Proof. intros Bs. rewrite (geo_conf n xs g gi g' gi' a b Hs Hi Hi' Ha Hab s Bs), grad_const, along_const. ring. Qed.
Lemma geo_time_const s : (s < n)%nat -> Geo_time n xs g' gi' s == Geo_time n xs g gi s.
Proof. intros Bs. rewrite (geo_time_conf n xs g gi g' gi' a b Hs Hi Hi' Ha Hab s Bs), !grad_const. ring. Qed.
Lemma geo_lowered_const s : (s < n)%nat -> Geo_lowered n xs g' gi' s == a * Geo_lowered n xs g gi s.
Proof.
  intros Bs. unfold Geo_lowered. rewrite <- nsum_scale. apply nsum_ext. intros k Bk. rewrite (Ha s k Bs Bk), (geo_const k Bk). ring.
Qed.

Lemma unit_sym (p q : K) : unit_multiple p q -> unit_multiple q p.
Proof. intros (u & v & E & H). exists v, u. split; [rewrite <- E; ring|]. rewrite H. transitivity (u * v * q); [rewrite E; ring|ring]. Qed.
Lemma unit_trans (p q r : K) : unit_multiple p q -> unit_multiple q r -> unit_multiple p r.
Proof.
  intros (u & v & E & H) (u' & v' & E' & H'). exists (u * u'), (v * v'). split.
  - transitivity (u * v * (u' * v')); [ring|rewrite E, E'; ring].
  - rewrite H, H'. ring.
Qed.
Lemma unit_eq (p q : K) : p == q -> unit_multiple p q.
Proof. intros H. exists k1, k1. split; [ring|rewrite H; ring]. Qed.
Lemma unit_chain (p q p' q' : K) : unit_multiple p q -> unit_multiple p' q' -> unit_multiple q' q -> unit_multiple p' p.
Proof. intros H1 H2 H3. eapply unit_trans; [exact H2|]. eapply unit_trans; [exact H3|]. apply unit_sym, H1. Qed.
End Const.

Section Units.
Context {A : AlgOps} {L : AlgLaws A}.
Add Ring Kring3 : kring (setoid keq_equiv kring_ext).
Lemma choose_units n (p q : nat -> K) : (forall k, (k < n)%nat -> unit_multiple (p k) (q k)) ->
  exists r, invertible n r /\ forall k, (k < n)%nat -> r k * p k == q k.
Proof.
  intros H. assert (G : exists r s, forall k, (k < n)%nat -> r k * s k == k1 /\ r k * p k == q k).
  { clear - H L. induction n as [|n0 IH]; [exists (fun _ => k1), (fun _ => k1); intros k Hk; lia|].
    destruct IH as (r & s & HR); [intros k Hk; apply H; lia|]. destruct (H n0 ltac:(lia)) as (u & v & E & F).
    exists (fun k => if Nat.eqb k n0 then v else r k), (fun k => if Nat.eqb k n0 then u else s k). intros k Hk.
    destruct (Nat.eqb_spec k n0) as [->|N].
    - split; [rewrite <- E; ring|]. rewrite F. transitivity (u * v * q n0); [ring|]. rewrite E. ring.
    - apply HR. lia. }
  destruct G as (r & s & G). exists r. split; [exists s; intros k Hk; apply G, Hk|intros k Hk; apply G, Hk].
Qed.
End Units.

Section Computed.
Context {A : AlgOps} {L : AlgLaws A} {D : DiffLaws A} {C : CleanLaws A}.
Add Ring Kring4 : kring (setoid keq_equiv kring_ext).
Variables (n : nat) (xs : list string) (m c m' c' : oid) (name name' : string) (g gi g' gi' : nat -> nat -> K) (a b : K) (w w' : world).
Variables coords coords' : option oid.
Hypothesis HS : metric_session w n m c name xs g gi.
Hypothesis HK : known_results n xs g gi w m c name.
Hypothesis HC : known_curves n xs g gi w m c name.
Hypothesis HS' : metric_session w' n m' c' name' xs g' gi'.
Hypothesis HK' : known_results n xs g' gi' w' m' c' name'.
Hypothesis HC' : known_curves n xs g' gi' w' m' c' name'.
Hypothesis Co : coords = None \/ coords = Some c.
Hypothesis Co' : coords' = None \/ coords' = Some c'.
Hypothesis Ha : times_metric n a g g'.
Hypothesis Hab : a * b == k1.

Lemma conf_lagrangian : exists h w1 h' w1',
  computes (calc_lagrangian m coords) n m c [] w h w1 /\ computes (calc_lagrangian m' coords') n m' c' [] w' h' w1' /\ h' [] == a * h [].
Proof.
  destruct (lagrangian_gives n m c name xs g gi w coords HS HK HC Co) as (l & w1 & h & E1 & _ & _ & V1 & P1 & _).
  destruct (lagrangian_gives n m' c' name' xs g' gi' w' coords' HS' HK' HC' Co') as (l' & w1' & h' & E1' & _ & _ & V1' & P1' & _).
  exists h, w1, h', w1'. split; [exists l; auto|]. split; [exists l'; auto|].
  unfold is_lagrangian in P1, P1'. rewrite P1, P1'. unfold Lag. apply (lagrangian_times n g g' a Ha).
Qed.
Lemma conf_geodesics : exists l w1 f w2 f' w1' r r',
  computes (calc_lagrangian m coords) n m c [] w l w1 /\ computes (calc_geodesic_christoffel m coords) n m c [1]%Z w1 f w2 /\
  computes (calc_geodesic_christoffel m' coords') n m' c' [1]%Z w' f' w1' /\ invertible n r /\ invertible n r' /\
  forall s, (s < n)%nat -> r' s * f' [s] ==
    r s * f [s] + (b * (change_along n xs a * velocity (nth s xs ""%string)) - kinvn 2 * b * (gradient n xs gi a s * l [])).
Proof.
  destruct (session_facts n m c name xs g gi w HS) as (Hs & Hi & Lx). destruct (session_facts n m' c' name' xs g' gi' w' HS') as (_ & Hi' & _).
  destruct (lagrangian_gives n m c name xs g gi w coords HS HK HC Co) as (l & w1 & h & E1 & _ & _ & V1 & P1 & _ & S1 & K1 & C1).
  destruct (geodesic_christoffel_gives n m c name xs g gi w1 coords S1 K1 C1 Co) as (u & w2 & f & E2 & _ & _ & V2 & P2 & _).
  destruct (geodesic_christoffel_gives n m' c' name' xs g' gi' w' coords' HS' HK' HC' Co') as (u' & w1' & f' & E3 & _ & _ & V3 & P3 & _).
  destruct (choose_units n _ _ P2) as (r & R1 & R2). destruct (choose_units n _ _ P3) as (r' & R1' & R2').
  exists h, w1, f, w2, f', w1', r, r'. split; [exists l; auto|]. split; [exists u; auto|]. split; [exists u'; auto|].
  split; [exact R1|]. split; [exact R1'|]. intros s Bs. rewrite (R2 s Bs), (R2' s Bs). unfold is_lagrangian in P1. rewrite P1.
  apply (geo_conf n xs g gi g' gi' a b Hs Hi Hi' Ha Hab s Bs).
Qed.
Lemma conf_time : exists f w1 f' w1' r r',
  computes (calc_geodesic_time m coords) n m c [1]%Z w f w1 /\
  computes (calc_geodesic_time m' coords') n m' c' [1]%Z w' f' w1' /\ invertible n r /\ invertible n r' /\
  forall s, (s < n)%nat -> r' s * f' [s] ==
    r s * f [s] - kinvn 2 * b * ((gradient n xs gi a s - tvel xs s * gradient n xs gi a 0%nat) * lagrangian_of n g (tvel xs)).
Proof.
  destruct (session_facts n m c name xs g gi w HS) as (Hs & Hi & Lx). destruct (session_facts n m' c' name' xs g' gi' w' HS') as (_ & Hi' & _).
  destruct (geodesic_time_gives n m c name xs g gi w coords HS HK HC Co) as (u & w2 & f & E2 & _ & _ & V2 & P2 & _).
  destruct (geodesic_time_gives n m' c' name' xs g' gi' w' coords' HS' HK' HC' Co') as (u' & w1' & f' & E3 & _ & _ & V3 & P3 & _).
  destruct (choose_units n _ _ P2) as (r & R1 & R2). destruct (choose_units n _ _ P3) as (r' & R1' & R2').
  exists f, w2, f', w1', r, r'. split; [exists u; auto|]. split; [exists u'; auto|].
  split; [exact R1|]. split; [exact R1'|]. intros s Bs. rewrite (R2 s Bs), (R2' s Bs).
  apply (geo_time_conf n xs g gi g' gi' a b Hs Hi Hi' Ha Hab s Bs).
Qed.

Section Constant.
Hypothesis Hc : constant xs a.
Lemma scaled_geodesics : exists f w1 f' w1',
  computes (calc_geodesic_christoffel m coords) n m c [1]%Z w f w1 /\ computes (calc_geodesic_christoffel m' coords') n m' c' [1]%Z w' f' w1' /\
  forall s, (s < n)%nat -> unit_multiple (f' [s]) (f [s]).
Proof.
  destruct (session_facts n m c name xs g gi w HS) as (Hs & Hi & Lx). destruct (session_facts n m' c' name' xs g' gi' w' HS') as (_ & Hi' & _).
  destruct (geodesic_christoffel_gives n m c name xs g gi w coords HS HK HC Co) as (u & w2 & f & E2 & _ & _ & V2 & P2 & _).
  destruct (geodesic_christoffel_gives n m' c' name' xs g' gi' w' coords' HS' HK' HC' Co') as (u' & w1' & f' & E3 & _ & _ & V3 & P3 & _).
  exists f, w2, f', w1'. split; [exists u; auto|]. split; [exists u'; auto|]. intros s Bs. eapply unit_chain; [apply (P2 s Bs)|apply (P3 s Bs)|].
  apply unit_eq. apply (geo_const n xs g gi g' gi' a b Lx Hs Hi Hi' Ha Hab Hc s Bs).
Qed.
Lemma scaled_time : exists f w1 f' w1',
  computes (calc_geodesic_time m coords) n m c [1]%Z w f w1 /\ computes (calc_geodesic_time m' coords') n m' c' [1]%Z w' f' w1' /\
  forall s, (s < n)%nat -> unit_multiple (f' [s]) (f [s]).
Proof.
  destruct (session_facts n m c name xs g gi w HS) as (Hs & Hi & Lx). destruct (session_facts n m' c' name' xs g' gi' w' HS') as (_ & Hi' & _).
  destruct (geodesic_time_gives n m c name xs g gi w coords HS HK HC Co) as (u & w2 & f & E2 & _ & _ & V2 & P2 & _).
  destruct (geodesic_time_gives n m' c' name' xs g' gi' w' coords' HS' HK' HC' Co') as (u' & w1' & f' & E3 & _ & _ & V3 & P3 & _).
  exists f, w2, f', w1'. split; [exists u; auto|]. split; [exists u'; auto|]. intros s Bs. eapply unit_chain; [apply (P2 s Bs)|apply (P3 s Bs)|].
  apply unit_eq. apply (geo_time_const n xs g gi g' gi' a b Lx Hs Hi Hi' Ha Hab Hc s Bs).
Qed.
Lemma scaled_lagrange {Y : SymLaws A} : static_metric n xs g -> static_metric n xs g' -> exists f w1 f' w1',
  computes (calc_geodesic_lagrangian m coords) n m c [1]%Z w f w1 /\ computes (calc_geodesic_lagrangian m' coords') n m' c' [1]%Z w' f' w1' /\
  forall s, (s < n)%nat -> unit_multiple (f' [s]) (f [s]).
Proof.
  intros St St'.
  destruct (session_facts n m c name xs g gi w HS) as (Hs & Hi & Lx). destruct (session_facts n m' c' name' xs g' gi' w' HS') as (_ & Hi' & _).
  destruct (geodesic_lagrangian_gives n m c name xs g gi w coords HS HK HC St Co) as (u & w2 & f & E2 & _ & _ & V2 & P2 & _).
  destruct (geodesic_lagrangian_gives n m' c' name' xs g' gi' w' coords' HS' HK' HC' St' Co') as (u' & w1' & f' & E3 & _ & _ & V3 & P3 & _).
  exists f, w2, f', w1'. split; [exists u; auto|]. split; [exists u'; auto|]. intros s Bs. eapply unit_chain; [apply (P2 s Bs)|apply (P3 s Bs)|].
  exists a, b. split; [exact Hab|]. apply (geo_lowered_const n xs g gi g' gi' a b Lx Hs Hi Hi' Ha Hab Hc s Bs).
Qed.
End Constant.
End Computed.
