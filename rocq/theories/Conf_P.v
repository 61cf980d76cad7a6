(** Curvature of conformally related metrics. *)
From Verif Require Import Alg Alg_P Arr Arr_P Spec Act_P TensorM WorldM SpecWorld CalcM SpecCalc CurvM SpecCurv SpecDim SpecConst SpecScale Curv_P Curv2_P CurvDim_P CurvDim2_P CurvConst_P Scale_P.
Local Open Scope K_scope.

Section Conf.
Context {A : AlgOps} {L : AlgLaws A} {D : DiffLaws A}.
Add Ring Kring : kring (setoid keq_equiv kring_ext).
Variables (n : nat) (x : nat -> string) (g gi g' gi' : nat -> nat -> K) (a b : K).
Hypothesis Hs : symmetric_fun n g.
Hypothesis Hi : inverse_fun n g gi.
Hypothesis Hs' : symmetric_fun n g'.
Hypothesis Hi' : inverse_fun n g' gi'.
Hypothesis Ha : forall i j, (i < n)%nat -> (j < n)%nat -> g' i j == a * g i j.
Hypothesis Hb : forall i j, (i < n)%nat -> (j < n)%nat -> gi' i j == b * gi i j.
Hypothesis Hab : a * b == k1.

Notation e := (kinvn 2).
Definition d1 (i : nat) : K := kdiff (x i) a.
Definition d2 (i j : nat) : K := kdiff (x i) (kdiff (x j) a).
Lemma d2_sym i j : d2 i j == d2 j i.
Proof. apply kdiff_comm. Qed.
Definition T (l j k : nat) : K := d1 j * g l k + d1 k * g j l - d1 l * g j k.
Definition hh (i j : nat) : K := nsum n (fun l => nsum n (fun k => gi l k * (Gl x g l i j * d1 k))).
Definition nn : K := nsum n (fun l => nsum n (fun k => gi l k * (d1 l * d1 k))).
(** The Schouten part that is added. *)
Definition B (i j : nat) : K := (e * hh i j - e * d2 i j) + (e * e + e * e + e * e) * b * (d1 i * d1 j) - e * e * e * b * nn * g i j.

Lemma hh_sym i j : (i < n)%nat -> (j < n)%nat -> hh i j == hh j i.
Proof. intros Bi Bj. apply nsum_ext. intros l Hl. apply nsum_ext. intros k Hk. rewrite (Gl_sym n x g Hs l i j) by assumption. reflexivity. Qed.
Lemma B_sym i j : (i < n)%nat -> (j < n)%nat -> B i j == B j i.
Proof. intros Bi Bj. unfold B. rewrite (hh_sym i j), (d2_sym i j), (Hs i j) by assumption. ring. Qed.

(** *** Pieces *)
Lemma diff_g' k i j : (i < n)%nat -> (j < n)%nat -> kdiff (x k) (g' i j) == a * kdiff (x k) (g i j) + d1 k * g i j.
Proof. intros Bi Bj. rewrite (Ha i j Bi Bj), kdiff_mul. unfold d1. ring. Qed.
Lemma Gl' l j k : (l < n)%nat -> (j < n)%nat -> (k < n)%nat -> Gl x g' l j k == a * Gl x g l j k + e * T l j k.
Proof. intros Bl Bj Bk. unfold Gl, T. rewrite !diff_g' by assumption. ring. Qed.
Lemma dd' k l i j : (i < n)%nat -> (j < n)%nat ->
  dd x g' k l i j == a * dd x g k l i j + d1 k * kdiff (x l) (g i j) + d1 l * kdiff (x k) (g i j) + d2 k l * g i j.
Proof.
  intros Bi Bj. unfold dd. rewrite (kdiff_proper (x k) _ _ (diff_g' l i j Bi Bj)), kdiff_add, !kdiff_mul. unfold d1, d2. ring.
Qed.

(** Contractions with T. *)
Lemma T_contract (f : nat -> K) i j : (i < n)%nat -> (j < n)%nat ->
  nsum n (fun l => nsum n (fun k => gi l k * (f l * T k i j))) ==
  d1 i * f j + d1 j * f i - g i j * nsum n (fun l => nsum n (fun k => gi l k * (f l * d1 k))).
Proof.
  intros Bi Bj.
  transitivity (nsum n (fun l => f l * d1 i * kdelta l j + f l * d1 j * kdelta l i - g i j * nsum n (fun k => gi l k * (f l * d1 k)))).
  { apply nsum_ext. intros l Hl. rewrite <- (proj2 Hi l j Hl Bj), <- (gi_g_left n g gi Hs Hi l i Hl Bi).
    rewrite <- !nsum_scale, <- nsum_add, <- nsum_sub. apply nsum_ext. intros k Hk. unfold T. ring. }
  rewrite nsum_sub, nsum_add, nsum_scale.
  rewrite (nsum_delta_r n j (fun l => f l * d1 i) Bj), (nsum_delta_r n i (fun l => f l * d1 j) Bi). ring.
Qed.
Lemma swapped (f h : nat -> K) : nsum n (fun l => nsum n (fun k => gi l k * (f l * h k))) == nsum n (fun l => nsum n (fun k => gi l k * (h l * f k))).
Proof. rewrite nsum_swap. apply nsum_ext. intros l Hl. apply nsum_ext. intros k Hk. rewrite (gi_sym n g gi Hs Hi k l Hk Hl). ring. Qed.

Lemma Q' i j k l : (i < n)%nat -> (j < n)%nat -> (k < n)%nat -> (l < n)%nat ->
  Q n x g' gi' i j k l == a * Q n x g gi i j k l
    + e * (d1 k * Gl x g l i j + d1 l * Gl x g k i j - g k l * hh i j)
    + e * (d1 i * Gl x g j k l + d1 j * Gl x g i k l - g i j * hh k l)
    + e * e * b * (d1 k * T l i j + d1 l * T k i j - g k l * (d1 i * d1 j + d1 j * d1 i - g i j * nn)).
Proof.
  intros Bi Bj Bk Bl. unfold Q.
  transitivity (nsum n (fun p => nsum n (fun q => a * (gi p q * (Gl x g p i j * Gl x g q k l)) + e * (gi p q * (Gl x g p i j * T q k l))
     + e * (gi p q * (T p i j * Gl x g q k l)) + e * e * b * (gi p q * (T p i j * T q k l))))).
  { apply nsum_ext. intros p Hp. apply nsum_ext. intros q Hq. rewrite !Gl', Hb by assumption.
    transitivity (a * b * (a * (gi p q * (Gl x g p i j * Gl x g q k l)) + e * (gi p q * (Gl x g p i j * T q k l))
     + e * (gi p q * (T p i j * Gl x g q k l))) + e * e * b * (gi p q * (T p i j * T q k l))); [ring|]. rewrite Hab. ring. }
  transitivity (a * nsum n (fun p => nsum n (fun q => gi p q * (Gl x g p i j * Gl x g q k l)))
     + e * nsum n (fun p => nsum n (fun q => gi p q * (Gl x g p i j * T q k l)))
     + e * nsum n (fun p => nsum n (fun q => gi p q * (T p i j * Gl x g q k l)))
     + e * e * b * nsum n (fun p => nsum n (fun q => gi p q * (T p i j * T q k l)))).
  { rewrite <- !nsum_scale, <- !nsum_add. apply nsum_ext. intros p Hp. rewrite <- !nsum_scale, <- !nsum_add. reflexivity. }
  rewrite (swapped (fun p => T p i j) (fun q => Gl x g q k l)).
  rewrite (T_contract (fun p => Gl x g p i j) k l Bk Bl), (T_contract (fun p => Gl x g p k l) i j Bi Bj), (T_contract (fun p => T p i j) k l Bk Bl).
  rewrite (swapped (fun p => T p i j) d1), (T_contract d1 i j Bi Bj). fold nn. unfold hh. ring.
Qed.

Notation R := (riemann_of n x (christoffel_of n x g gi)).
Notation R' := (riemann_of n x (christoffel_of n x g' gi')).
Lemma lowered_conf r s m v : (r < n)%nat -> (s < n)%nat -> (m < n)%nat -> (v < n)%nat ->
  lowered n g' R' r s m v == a * lowered n g R r s m v + (g r m * B v s - g r v * B m s + g v s * B m r - g m s * B v r).
Proof.
  intros Br Bs Bm Bv. rewrite (lowered_second n x g' gi' Hs' Hi'), (lowered_second n x g gi Hs Hi) by assumption.
  rewrite !dd', !Q' by assumption.
  assert (He : e + e == k1). { assert (H := kinvn_ok 2 ltac:(discriminate)). cbn in H. rewrite <- H. ring. }
  rewrite !(diff_g n x g Hs) by assumption. unfold T, B.
  rewrite ?(Gl_sym n x g Hs m r m), ?(Gl_sym n x g Hs m s m), ?(Gl_sym n x g Hs m s r), ?(Gl_sym n x g Hs m v m), ?(Gl_sym n x g Hs m v r), ?(Gl_sym n x g Hs m v s) by assumption.
  rewrite ?(Gl_sym n x g Hs r r m), ?(Gl_sym n x g Hs r s m), ?(Gl_sym n x g Hs r s r), ?(Gl_sym n x g Hs r v m), ?(Gl_sym n x g Hs r v r), ?(Gl_sym n x g Hs r v s) by assumption.
  rewrite ?(Gl_sym n x g Hs s r m), ?(Gl_sym n x g Hs s s m), ?(Gl_sym n x g Hs s s r), ?(Gl_sym n x g Hs s v m), ?(Gl_sym n x g Hs s v r), ?(Gl_sym n x g Hs s v s) by assumption.
  rewrite ?(Gl_sym n x g Hs v r m), ?(Gl_sym n x g Hs v s m), ?(Gl_sym n x g Hs v s r), ?(Gl_sym n x g Hs v v m), ?(Gl_sym n x g Hs v v r), ?(Gl_sym n x g Hs v v s) by assumption.
  rewrite ?(Hs r m), ?(Hs s m), ?(Hs s r), ?(Hs v m), ?(Hs v r), ?(Hs v s) by assumption.
  rewrite ?(hh_sym r m), ?(hh_sym s m), ?(hh_sym s r), ?(hh_sym v m), ?(hh_sym v r), ?(hh_sym v s) by assumption.
  rewrite ?(d2_sym r m), ?(d2_sym s m), ?(d2_sym s r), ?(d2_sym v m), ?(d2_sym v r), ?(d2_sym v s).
  assert (Hz : forall X Y z, X == Y + (k1 - (e + e)) * z -> X == Y) by (intros X Y z ->; rewrite He; ring).
  apply (Hz _ _ (- (e * e * b * nn * (g m r * g s v - g m s * g r v)))). ring.
Qed.

Notation Rc := (ricci_of n R).
Notation Rc' := (ricci_of n R').
Definition tb : K := trace_of n gi B.
Lemma ricci_conf i j : (i < n)%nat -> (j < n)%nat -> Rc' i j == Rc i j + b * ((knat n - (k1 + k1)) * B i j + tb * g i j).
Proof.
  intros Bi Bj. rewrite (ricci_lowered n x g' gi' Hi'), (ricci_lowered n x g gi Hi).
  transitivity (nsum n (fun l => nsum n (fun p => gi l p * lowered n g R p i l j + b * (B i j * (gi l p * g l p)) - b * ((gi l p * g p j) * B l i)
    + b * (g i j * (gi l p * B l p)) - b * ((gi l p * g l i) * B j p)))).
  { apply nsum_ext. intros l Hl. apply nsum_ext. intros p Hp. rewrite lowered_conf, Hb by assumption.
    rewrite (Hs p l), (Hs j i), (B_sym j i) by assumption.
    transitivity (a * b * (gi l p * lowered n g R p i l j) + b * (B i j * (gi l p * g l p)) - b * ((gi l p * g p j) * B l i)
    + b * (g i j * (gi l p * B l p)) - b * ((gi l p * g l i) * B j p)); [ring|]. rewrite Hab. ring. }
  assert (E1 : nsum n (fun l => nsum n (fun p => gi l p * g l p)) == knat n) by apply (trace_metric n g gi Hs Hi).
  assert (E2 : nsum n (fun l => nsum n (fun p => (gi l p * g p j) * B l i)) == B i j).
  { rewrite (B_sym i j) by assumption. rewrite <- (nsum_delta_l' n j (fun l => B l i) Bj). apply nsum_ext. intros l Hl. rewrite nsum_scale_r, (proj2 Hi l j Hl Bj). reflexivity. }
  assert (E3 : nsum n (fun l => nsum n (fun p => (gi l p * g l i) * B j p)) == B i j).
  { rewrite nsum_swap, (B_sym i j) by assumption. rewrite <- (nsum_delta_l' n i (fun p => B j p) Bi). apply nsum_ext. intros p Hp. rewrite nsum_scale_r.
    rewrite <- (gi_g_left n g gi Hs Hi p i Hp Bi). apply kmul_proper; [|reflexivity]. apply nsum_ext. intros l Hl. rewrite (gi_sym n g gi Hs Hi l p), (Hs i l) by assumption. reflexivity. }
  transitivity (nsum n (fun l => nsum n (fun p => gi l p * lowered n g R p i l j)) + b * (B i j * nsum n (fun l => nsum n (fun p => gi l p * g l p)))
    - b * nsum n (fun l => nsum n (fun p => (gi l p * g p j) * B l i)) + b * (g i j * nsum n (fun l => nsum n (fun p => gi l p * B l p)))
    - b * nsum n (fun l => nsum n (fun p => (gi l p * g l i) * B j p))).
  { rewrite <- !nsum_scale, <- nsum_add, <- nsum_sub, <- nsum_add, <- nsum_sub. apply nsum_ext. intros l Hl.
    rewrite <- !nsum_scale, <- nsum_add, <- nsum_sub, <- nsum_add, <- nsum_sub. reflexivity. }
  rewrite E1, E2, E3. change (nsum n (fun l => nsum n (fun p => gi l p * B l p))) with tb. ring.
Qed.
Lemma scalar_conf : trace_of n gi' Rc' == b * trace_of n gi Rc + b * b * ((knat n - k1) * tb + (knat n - k1) * tb).
Proof.
  transitivity (b * trace_of n gi Rc + (b * b * (knat n - (k1 + k1))) * trace_of n gi B + (b * b * tb) * trace_of n gi g); [|rewrite (trace_metric n g gi Hs Hi); fold tb; ring].
  unfold trace_of at 1 2 3 4. rewrite <- !nsum_scale, <- !nsum_add. apply nsum_ext. intros i Bi. rewrite <- !nsum_scale, <- !nsum_add. apply nsum_ext. intros j Bj.
  rewrite ricci_conf, Hb by assumption. ring.
Qed.
Lemma weyl_conf i k l m : (3 <= n)%nat -> (i < n)%nat -> (k < n)%nat -> (l < n)%nat -> (m < n)%nat ->
  weyl_of n g' (lowered n g' R') Rc' (trace_of n gi' Rc') i k l m == a * weyl_of n g (lowered n g R) Rc (trace_of n gi Rc) i k l m.
Proof.
  intros Hn Bi Bk Bl Bm. unfold weyl_of. rewrite lowered_conf, scalar_conf, !ricci_conf by assumption.
  destruct (knat_pred n ltac:(lia)) as [P2 P1].
  set (u := kinvn (n - 2)). set (v := kinvn ((n - 2) * (n - 1))).
  assert (E1 : (knat n - k1) * v == u).
  { unfold u. rewrite P1. rewrite <- (kinvn_mul (n - 2) (n - 1)) by lia. unfold v. ring. }
  assert (E2 : (knat n - (k1 + k1)) * u == k1).
  { transitivity (knat (n - 2) * kinvn (n - 2)); [unfold u; rewrite P2; ring|apply kinvn_ok; lia]. }
  rewrite !Ha by assumption. rewrite (B_sym m k), (B_sym l i), (B_sym m i), (B_sym l k), (Hs m k), (Hs l k) by assumption.
  set (S := trace_of n gi Rc). set (Y := lowered n g R i k l m).
  transitivity (a * Y + a * (u * (Rc i m * g k l - Rc i l * g k m + Rc k l * g i m - Rc k m * g i l))
    + (a * b) * (a * (v * (S * (g i l * g k m - g i m * g k l))))
    + (g i l * B k m - g i m * B k l + g k m * B i l - g k l * B i m) * (k1 - (a * b) * ((knat n - (k1 + k1)) * u))
    - (k1 + k1) * tb * (g i l * g k m - g i m * g k l) * ((a * b) * (u - (a * b) * ((knat n - k1) * v)))); [ring|].
  rewrite Hab, E1, E2. ring.
Qed.
End Conf.

Section Computed.
Context {A : AlgOps} {L : AlgLaws A} {D : DiffLaws A}.
Add Ring Kring2 : kring (setoid keq_equiv kring_ext).
Local Open Scope nat_scope.
Variables (n : nat) (xs : list string) (m c m' c' : oid) (name name' : string) (g gi g' gi' : nat -> nat -> K) (a b : K) (w w' : world).
Hypothesis HS : metric_session w n m c name xs g gi.
Hypothesis HK : known_results n xs g gi w m c name.
Hypothesis HS' : metric_session w' n m' c' name' xs g' gi'.
Hypothesis HK' : known_results n xs g' gi' w' m' c' name'.
Hypothesis Ha : times_metric n a g g'.
Hypothesis Hab : keq (kmul a b) k1.
Hypothesis Hn : 3 <= n.
Hypothesis Hf : forall j, In j (insts w) -> named w (name ++ " Ricci Tensor") j -> ~ used w j.
Hypothesis Hf' : forall j, In j (insts w') -> named w' (name' ++ " Ricci Tensor") j -> ~ used w' j.

Lemma weyl_value i j k l : i < n -> j < n -> k < n -> l < n -> keq (Wey n xs g' gi' i j k l) (kmul a (Wey n xs g gi i j k l)).
Proof.
  destruct (session_metric n m c name xs g gi w HS) as [Hs Hi]. destruct (session_metric n m' c' name' xs g' gi' w' HS') as [Hs' Hi']. intros.
  apply (weyl_conf n (cx xs) g gi g' gi' a b Hs Hi Hs' Hi' Ha); try assumption. intros. apply (inverse_times n g gi g' gi' a b Hi Hi' Ha Hab); assumption.
Qed.
Lemma conf_computed : in_ratio n [-1; -1; -1; -1]%Z a (calc_weyl m) m c w (calc_weyl m') m' c' w'.
Proof.
  destruct (weyl_gives n m c name xs g gi w HS HK Hn Hf) as (t & w1 & E1 & _ & V1 & _).
  destruct (weyl_gives n m' c' name' xs g' gi' w' HS' HK' Hn Hf') as (u & w2 & E2 & _ & V2 & _).
  exists t, w1, u, w2. eexists. split; [exact E1|]. split; [exact V1|]. split; [exact E2|]. eapply value_ext; [|exact V2].
  intros idx R. destruct (range4 n idx R) as (B0 & B1 & B2 & B3). unfold at4. apply weyl_value; assumption.
Qed.
End Computed.

(** Conformally flat metrics. *)
Section Flat.
Context {A : AlgOps} {L : AlgLaws A} {D : DiffLaws A}.
Add Ring Kring3 : kring (setoid keq_equiv kring_ext).
Local Open Scope nat_scope.
Variables (n : nat) (xs : list string) (m c : oid) (name : string) (g gi h : nat -> nat -> K) (a b : K) (w : world).
Hypothesis HS : metric_session w n m c name xs g gi.
Hypothesis HK : known_results n xs g gi w m c name.
Hypothesis Ha : times_metric n a h g.
Hypothesis Hab : keq (kmul a b) k1.
Hypothesis Hh : forall i j, i < n -> j < n -> constant xs (h i j).
Hypothesis Hn : 3 <= n.
Hypothesis Hf : forall j, In j (insts w) -> named w (name ++ " Ricci Tensor") j -> ~ used w j.

Lemma flat_weyl : exists t w', calc_weyl m w = (Ok t, w') /\ tensor_value w' n m c t [-1; -1; -1; -1]%Z (fun _ => k0).
Proof.
  destruct (session_metric n m c name xs g gi w HS) as [Hs Hi].
  assert (Hx : length xs = n). { destruct HS as (_ & _ & _ & _ & _ & _ & _ & (oc & _ & _ & H) & _). exact H. }
  set (hi := fun i j => kmul a (gi i j)).
  assert (Bh : forall i j, i < n -> j < n -> keq (h i j) (kmul b (g i j))).
  { intros i j Bi Bj. rewrite (Ha i j Bi Bj). transitivity (kmul (kmul a b) (h i j)); [rewrite Hab; ring|ring]. }
  assert (Hsh : symmetric_fun n h) by (intros i j Bi Bj; rewrite !Bh, (Hs i j) by assumption; reflexivity).
  assert (Hih : inverse_fun n h hi).
  { split; intros i j Bi Bj; [rewrite <- (proj1 Hi i j Bi Bj)|rewrite <- (proj2 Hi i j Bi Bj)]; apply nsum_ext; intros k Hk; unfold hi; rewrite !Bh by assumption.
    - transitivity (kmul (kmul a b) (kmul (g i k) (gi k j))); [ring|rewrite Hab; ring].
    - transitivity (kmul (kmul a b) (kmul (gi i k) (g k j))); [ring|rewrite Hab; ring]. }
  assert (Bi' : forall i j, i < n -> j < n -> keq (gi i j) (kmul b (hi i j))).
  { intros i j _ _. unfold hi. transitivity (kmul (kmul a b) (gi i j)); [rewrite Hab; ring|ring]. }
  assert (G0 : forall i j k, i < n -> j < n -> k < n -> keq (Gam n xs h hi i j k) k0).
  { intros i j k Bi Bj Bk. unfold Gam, christoffel_of. apply nsum_zero'. intros l Hl.
    rewrite !(Hh _ _) by (try assumption; unfold cx; apply nth_In; lia). ring. }
  assert (R0 : forall r s u v, r < n -> s < n -> u < n -> v < n -> keq (Rie n xs h hi r s u v) k0).
  { intros r s u v B1 B2 B3 B4. unfold Rie, riemann_of.
    rewrite (kdiff_proper _ _ _ (G0 r v s B1 B4 B2)), (kdiff_proper _ _ _ (G0 r u s B1 B3 B2)), !kdiff_0.
    rewrite !nsum_zero' by (intros l Hl; rewrite !G0 by assumption; ring). ring. }
  assert (Ric0 : forall i j, i < n -> j < n -> keq (Ric n xs h hi i j) k0) by (intros; unfold Ric, ricci_of; apply nsum_zero'; intros; apply R0; assumption).
  destruct (weyl_gives n m c name xs g gi w HS HK Hn Hf) as (t & w1 & E1 & _ & V1 & _). exists t, w1. split; [exact E1|].
  eapply value_ext; [|exact V1]. intros idx R. destruct (range4 n idx R) as (B0 & B1 & B2 & B3). unfold at4.
  change (keq (weyl_of n g (lowered n g (Rie n xs g gi)) (Ric n xs g gi) (Sca n xs g gi) (nth 0 idx 0) (nth 1 idx 0) (nth 2 idx 0) (nth 3 idx 0)) k0).
  transitivity (kmul a (Wey n xs h hi (nth 0 idx 0) (nth 1 idx 0) (nth 2 idx 0) (nth 3 idx 0))).
  { apply (weyl_conf n (cx xs) h hi g gi a b Hsh Hih Hs Hi Ha Bi' Hab); assumption. }
  unfold Wey, weyl_of. rewrite !Ric0 by assumption.
  assert (S0 : keq (Sca n xs h hi) k0) by (unfold Sca; apply trace_zero; assumption).
  assert (L0 : keq (lowered n h (Rie n xs h hi) (nth 0 idx 0) (nth 1 idx 0) (nth 2 idx 0) (nth 3 idx 0)) k0) by (unfold lowered; apply nsum_zero'; intros l Hl; rewrite R0 by assumption; ring).
  rewrite S0, L0. ring.
Qed.
End Flat.
