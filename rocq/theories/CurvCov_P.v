(** The curvature and covariant derivatives under a change of coordinates. *)
From Verif Require Import Alg Alg_P Arr Arr_P Spec SpecCurv SpecCov Act_P Tensor_P Curv_P.
From Coq Require Import Setoid.
Local Open Scope K_scope.

Section Change.
Context {A : AlgOps} {L : AlgLaws A} {DL : DiffLaws A}.
Add Ring Kring : kring (setoid keq_equiv kring_ext).
Variables (n : nat) (x y : nat -> string) (s : K -> K) (J JI : nat -> nat -> K) (G G' : nat -> nat -> nat -> K).
Hypothesis Hs : hom s.
Hypothesis HJ : inverse_fun n J JI.
(** The chain rule, for expressions without the new coordinates. *)
Hypothesis Hchain : forall e k, (k < n)%nat -> (forall l, (l < n)%nat -> kdiff (y l) e == k0) ->
  kdiff (y k) (s e) == nsum n (fun m => s (kdiff (x m) e) * J m k).
(** The change of the connection. *)
Hypothesis HC : forall p k j, (p < n)%nat -> (k < n)%nat -> (j < n)%nat ->
  kdiff (y k) (J p j) == nsum n (fun i => J p i * G' i k j) - nsum n (fun q => nsum n (fun r => J q k * J r j * s (G p q r))).
Hypothesis HCs : forall p k j, (p < n)%nat -> (k < n)%nat -> (j < n)%nat -> kdiff (y k) (J p j) == kdiff (y j) (J p k).
Hypothesis HG : forall p q r l, (p < n)%nat -> (q < n)%nat -> (r < n)%nat -> (l < n)%nat -> kdiff (y l) (G p q r) == k0.

Lemma hom_opp a : s (- a) == - s a.
Proof.
  transitivity (s (- a) + s a - s a); [ring|]. rewrite <- (hom_add _ Hs).
  assert (Z0 : s (- a + a) == k0) by (rewrite <- (hom_0 s Hs); apply (hom_proper _ Hs); ring). rewrite Z0. ring.
Qed.
Lemma hom_sub a b : s (a - b) == s a - s b.
Proof. transitivity (s (a + - b)); [apply (hom_proper _ Hs); ring|]. rewrite (hom_add _ Hs), hom_opp. ring. Qed.
Lemma hom_knat k : s (knat k) == knat k.
Proof. induction k as [|k IH]; cbn [knat]; [apply (hom_0 s Hs)|]. rewrite (hom_add _ Hs), (hom_1 _ Hs), IH. reflexivity. Qed.
Lemma hom_kinvn k : k <> 0%nat -> s (kinvn k) == kinvn k.
Proof.
  intros Hk. assert (H2 : knat k * kinvn k == k1) by (apply kinvn_ok; exact Hk).
  assert (H3 : knat k * s (kinvn k) == k1) by (rewrite <- (hom_knat k), <- (hom_mul _ Hs), <- (hom_1 _ Hs); apply (hom_proper _ Hs); exact H2).
  transitivity (knat k * kinvn k * s (kinvn k)); [rewrite H2; ring|]. transitivity (kinvn k * (knat k * s (kinvn k))); [ring|]. rewrite H3. ring.
Qed.

(** *** The Riemann tensor *)
Section Riemann.
Variables (p j m v : nat).
Hypothesis (Hp : (p < n)%nat) (Hj : (j < n)%nat) (Hm : (m < n)%nat) (Hv : (v < n)%nat).

Let A1 m v := nsum n (fun i => J p i * kdiff (y m) (G' i v j)).
Let A2 m v := nsum n (fun i => J p i * nsum n (fun a => G' i m a * G' a v j)).
Let X m v := nsum n (fun i => nsum n (fun t => nsum n (fun u => J t m * J u i * s (G p t u) * G' i v j))).
Let Y m v := nsum n (fun q => nsum n (fun r => kdiff (y m) (J q v) * J r j * s (G p q r))).
Let B1 m v := nsum n (fun q => nsum n (fun r => nsum n (fun t => J q v * J r j * J t m * s (kdiff (x t) (G p q r))))).
Let B2 m v := nsum n (fun q => nsum n (fun r => nsum n (fun t => nsum n (fun u => J q v * J t m * J u j * s (G r t u) * s (G p q r))))).

Lemma second_derivative m0 v0 : (m0 < n)%nat -> (v0 < n)%nat ->
  kdiff (y m0) (kdiff (y v0) (J p j)) == A1 m0 v0 + A2 m0 v0 - X m0 v0 - X v0 m0 - Y m0 v0 + B2 m0 v0 - B1 m0 v0.
Proof.
  intros Hm0 Hv0. rewrite (kdiff_proper _ _ _ (HC p v0 j Hp Hv0 Hj)), kdiff_sub, !kdiff_nsum.
  assert (E1 : nsum n (fun i => kdiff (y m0) (J p i * G' i v0 j)) == A1 m0 v0 + A2 m0 v0 - X m0 v0).
  { assert (E2 : A2 m0 v0 == nsum n (fun i => nsum n (fun a => J p a * G' a m0 i) * G' i v0 j)).
    { unfold A2. transitivity (nsum n (fun a => nsum n (fun i => J p a * (G' a m0 i * G' i v0 j)))).
      - apply nsum_ext. intros a _. symmetry. apply nsum_scale.
      - rewrite nsum_swap. apply nsum_ext. intros i _. rewrite <- nsum_scale_r. apply nsum_ext. intros a _. ring. }
    rewrite E2. unfold A1, X. rewrite <- nsum_add, <- nsum_sub. apply nsum_ext. intros i Hi. rewrite kdiff_mul, (HC p m0 i Hp Hm0 Hi).
    assert (E : nsum n (fun t => nsum n (fun u => J t m0 * J u i * s (G p t u) * G' i v0 j)) ==
                nsum n (fun q => nsum n (fun r => J q m0 * J r i * s (G p q r))) * G' i v0 j).
    { rewrite <- nsum_scale_r. apply nsum_ext. intros t _. rewrite <- nsum_scale_r. reflexivity. }
    rewrite E. ring. }
  assert (E2 : nsum n (fun q => kdiff (y m0) (nsum n (fun r => J q v0 * J r j * s (G p q r)))) == Y m0 v0 + X v0 m0 - B2 m0 v0 + B1 m0 v0).
  { assert (EX : X v0 m0 == nsum n (fun q => nsum n (fun r => J q v0 * nsum n (fun a => J r a * G' a m0 j) * s (G p q r)))).
    { unfold X. rewrite nsum_swap. apply nsum_ext. intros q _. rewrite nsum_swap. apply nsum_ext. intros r _.
      transitivity (J q v0 * s (G p q r) * nsum n (fun a => J r a * G' a m0 j)); [|ring]. rewrite <- nsum_scale. apply nsum_ext. intros a _. ring. }
    rewrite EX. unfold Y, B2, B1. rewrite <- !nsum_add, <- nsum_sub, <- nsum_add. apply nsum_ext. intros q Hq.
    rewrite kdiff_nsum, <- !nsum_add, <- nsum_sub, <- nsum_add. apply nsum_ext. intros r Hr.
    rewrite !kdiff_mul, (HC r m0 j Hr Hm0 Hj), (Hchain (G p q r) m0 Hm0 (fun l Hl => HG p q r l Hp Hq Hr Hl)).
    assert (EB2 : nsum n (fun t => nsum n (fun u => J q v0 * J t m0 * J u j * s (G r t u) * s (G p q r))) ==
                  J q v0 * nsum n (fun t => nsum n (fun u => J t m0 * J u j * s (G r t u))) * s (G p q r)).
    { transitivity (J q v0 * s (G p q r) * nsum n (fun t => nsum n (fun u => J t m0 * J u j * s (G r t u)))); [|ring].
      rewrite <- nsum_scale. apply nsum_ext. intros t _. rewrite <- nsum_scale. apply nsum_ext. intros u _. ring. }
    assert (EB1 : nsum n (fun t => J q v0 * J r j * J t m0 * s (kdiff (x t) (G p q r))) ==
                  J q v0 * J r j * nsum n (fun t => s (kdiff (x t) (G p q r)) * J t m0)).
    { rewrite <- nsum_scale. apply nsum_ext. intros t _. ring. }
    rewrite EB2, EB1. ring. }
  rewrite E1, E2. ring.
Qed.

Lemma riemann_core :
  nsum n (fun i => J p i * riemann_of n y G' i j m v) ==
  nsum n (fun r => nsum n (fun t => nsum n (fun q => J r j * J t m * J q v * s (riemann_of n x G p r t q)))).
Proof.
  assert (H : A1 m v + A2 m v - A1 v m - A2 v m == B1 m v - B2 m v - B1 v m + B2 v m).
  { assert (E := kdiff_comm (y m) (y v) (J p j)). rewrite (second_derivative m v Hm Hv), (second_derivative v m Hv Hm) in E.
    assert (EY : Y m v == Y v m).
    { unfold Y. apply nsum_ext. intros q Hq. apply nsum_ext. intros r _. rewrite (HCs q m v Hq Hm Hv). reflexivity. }
    rewrite EY in E.
    transitivity ((A1 m v + A2 m v - X m v - X v m - Y v m + B2 m v - B1 m v) + X m v + X v m + Y v m - B2 m v + B1 m v - A1 v m - A2 v m); [ring|].
    rewrite E. ring. }
  transitivity (A1 m v + A2 m v - A1 v m - A2 v m).
  { unfold A1, A2. rewrite <- nsum_add, <- !nsum_sub. apply nsum_ext. intros i _. unfold riemann_of. ring. }
  rewrite H.
  assert (EB1 : forall a b, B1 a b == nsum n (fun r => nsum n (fun t => nsum n (fun q => J r j * J t a * J q b * s (kdiff (x t) (G p q r)))))).
  { intros a b. unfold B1. rewrite nsum_swap. apply nsum_ext. intros r _. rewrite nsum_swap. apply nsum_ext. intros t _. apply nsum_ext. intros q _. ring. }
  assert (EB1' : B1 v m == nsum n (fun r => nsum n (fun t => nsum n (fun q => J r j * J t m * J q v * s (kdiff (x q) (G p t r)))))).
  { rewrite EB1. apply nsum_ext. intros r _. rewrite nsum_swap. apply nsum_ext. intros t _. apply nsum_ext. intros q _. ring. }
  assert (EB2 : forall a b, B2 a b == nsum n (fun r => nsum n (fun t => nsum n (fun q => J r j * J t a * J q b * s (nsum n (fun u => G p q u * G u t r)))))).
  { intros a b. unfold B2.
    transitivity (nsum n (fun q => nsum n (fun t => nsum n (fun r => nsum n (fun u => J q b * J t a * J r j * (s (G p q u) * s (G u t r))))))).
    - apply nsum_ext. intros q _. rewrite nsum_swap. apply nsum_ext. intros t _. rewrite nsum_swap. apply nsum_ext. intros r _. apply nsum_ext. intros u _. ring.
    - rewrite nsum_swap. etransitivity; [apply nsum_ext; intros t _; apply nsum_swap|]. rewrite nsum_swap.
      apply nsum_ext. intros r _. apply nsum_ext. intros t _. apply nsum_ext. intros q _. rewrite hom_nsum by exact Hs. rewrite nsum_scale.
      rewrite (nsum_ext n (fun u => s (G p q u * G u t r)) (fun u => s (G p q u) * s (G u t r))) by (intros u _; apply (hom_mul _ Hs)). ring. }
  assert (EB2' : B2 v m == nsum n (fun r => nsum n (fun t => nsum n (fun q => J r j * J t m * J q v * s (nsum n (fun u => G p t u * G u q r)))))).
  { rewrite EB2. apply nsum_ext. intros r _. rewrite nsum_swap. apply nsum_ext. intros t _. apply nsum_ext. intros q _. ring. }
  rewrite (EB1 m v), EB1', (EB2 m v), EB2'. rewrite <- !nsum_sub, <- nsum_add. apply nsum_ext. intros r _.
  rewrite <- !nsum_sub, <- nsum_add. apply nsum_ext. intros t _. rewrite <- !nsum_sub, <- nsum_add. apply nsum_ext. intros q _.
  unfold riemann_of. rewrite hom_sub, (hom_add _ Hs), hom_sub. ring.
Qed.
End Riemann.

Lemma solve_J (f h : nat -> K) i : (i < n)%nat -> (forall p, (p < n)%nat -> nsum n (fun a => J p a * f a) == h p) -> f i == nsum n (fun p => JI i p * h p).
Proof.
  intros Hi H. destruct HJ as [_ H2]. rewrite <- (nsum_delta_l n i f Hi).
  transitivity (nsum n (fun p => JI i p * nsum n (fun a => J p a * f a))).
  - transitivity (nsum n (fun a => nsum n (fun p => JI i p * J p a) * f a)).
    + apply nsum_ext. intros a Ha. rewrite (H2 i a Hi Ha). reflexivity.
    + transitivity (nsum n (fun a => nsum n (fun p => JI i p * (J p a * f a)))).
      * apply nsum_ext. intros a _. rewrite <- nsum_scale_r. apply nsum_ext. intros p _. ring.
      * rewrite nsum_swap. apply nsum_ext. intros p _. apply nsum_scale.
  - apply nsum_ext. intros p Hp. rewrite (H p Hp). reflexivity.
Qed.

Lemma riemann_change i j m v : (i < n)%nat -> (j < n)%nat -> (m < n)%nat -> (v < n)%nat ->
  riemann_of n y G' i j m v ==
  nsum n (fun p => nsum n (fun r => nsum n (fun t => nsum n (fun q => JI i p * J r j * J t m * J q v * s (riemann_of n x G p r t q))))).
Proof.
  intros Hi Hj Hm Hv. rewrite (solve_J _ _ i Hi (fun p Hp => riemann_core p j m v Hp Hj Hm Hv)).
  apply nsum_ext. intros p _. rewrite <- nsum_scale. apply nsum_ext. intros r _. rewrite <- nsum_scale. apply nsum_ext. intros t _.
  rewrite <- nsum_scale. apply nsum_ext. intros q _. ring.
Qed.

(** *** The Ricci tensor *)
Lemma J_JI t p : (t < n)%nat -> (p < n)%nat -> nsum n (fun m => J t m * JI m p) == kdelta t p.
Proof. intros Ht Hp. apply (proj1 HJ t p Ht Hp). Qed.

Lemma ricci_change j v : (j < n)%nat -> (v < n)%nat ->
  ricci_of n (riemann_of n y G') j v ==
  nsum n (fun r => nsum n (fun q => J r j * J q v * s (ricci_of n (riemann_of n x G) r q))).
Proof.
  intros Hj Hv. unfold ricci_of at 1.
  transitivity (nsum n (fun m => nsum n (fun p => nsum n (fun r => nsum n (fun t => nsum n (fun q => JI m p * J r j * J t m * J q v * s (riemann_of n x G p r t q))))))).
  { apply nsum_ext. intros m Hm. apply riemann_change; assumption. }
  transitivity (nsum n (fun p => nsum n (fun r => nsum n (fun t => nsum n (fun q => J r j * J q v * (kdelta t p * s (riemann_of n x G p r t q))))))).
  - rewrite nsum_swap. apply nsum_ext. intros p Hp. rewrite nsum_swap. apply nsum_ext. intros r _. rewrite nsum_swap. apply nsum_ext. intros t Ht.
    rewrite nsum_swap. apply nsum_ext. intros q _. rewrite <- (J_JI t p Ht Hp).
    transitivity (nsum n (fun m => J t m * JI m p) * (J r j * J q v * s (riemann_of n x G p r t q))); [|ring].
    rewrite <- nsum_scale_r. apply nsum_ext. intros m _. ring.
  - rewrite nsum_swap. apply nsum_ext. intros r _.
    transitivity (nsum n (fun p => nsum n (fun q => J r j * J q v * s (riemann_of n x G p r p q)))).
    + apply nsum_ext. intros p Hp. rewrite nsum_swap. apply nsum_ext. intros q _. rewrite nsum_scale.
      rewrite (nsum_delta_l' n p (fun t => s (riemann_of n x G p r t q)) Hp). reflexivity.
    + rewrite nsum_swap. apply nsum_ext. intros q _. rewrite nsum_scale. unfold ricci_of. rewrite (hom_nsum s) by exact Hs. reflexivity.
Qed.

Lemma act_add Ms f h idx : act n Ms (fun ks => f ks + h ks) idx == act n Ms f idx + act n Ms h idx.
Proof. unfold act. rewrite <- lsum_add. apply lsum_ext. intros ks _. ring. Qed.

Lemma act_nsum_scale Ms (c : nat -> K) (f : nat -> list nat -> K) m idx :
  act n Ms (fun ks => nsum m (fun p => c p * f p ks)) idx == nsum m (fun p => c p * act n Ms (f p) idx).
Proof. rewrite (act_nsum n m Ms (fun p ks => c p * f p ks)). apply nsum_ext. intros p _. unfold act. rewrite <- lsum_scale. apply lsum_ext. intros ks _. ring. Qed.

(** *** Covariant derivatives *)

(** The terms with the connection: one matrix [W z] for every index. *)
Definition conn (W : Z -> nat -> nat -> K) (zs : list Z) (F : list nat -> K) (idx : list nat) : K :=
  nsum (length zs) (fun j => nsum n (fun d => W (nth j zs 0%Z) (nth j idx 0%nat) d * F (replaced j d idx))).

Lemma nsum_first k f : nsum (S k) f == f 0%nat + nsum k (fun i => f (S i)).
Proof. unfold nsum. cbn [seq]. rewrite <- seq_shift. cbn [lsum]. rewrite lsum_map. reflexivity. Qed.

Lemma conn_cons W z zs F i idx :
  conn W (z :: zs) F (i :: idx) == nsum n (fun d => W z i d * F (d :: idx)) + conn W zs (fun ks => F (i :: ks)) idx.
Proof. unfold conn. cbn [length]. rewrite nsum_first. cbn [nth]. reflexivity. Qed.

Lemma replaced_range j d idx : (d < n)%nat -> (j < length idx)%nat -> Forall (fun i => (i < n)%nat) idx ->
  length (replaced j d idx) = length idx /\ Forall (fun i => (i < n)%nat) (replaced j d idx).
Proof.
  intros Hd Hj Hr. unfold replaced. split.
  - rewrite app_length. cbn [length]. rewrite firstn_length, skipn_length. lia.
  - rewrite <- (firstn_skipn j idx) in Hr. apply Forall_app in Hr as [H1 H2]. apply Forall_app. split; [exact H1|]. constructor; [exact Hd|].
    rewrite <- (firstn_skipn (S j) idx) in *. apply Forall_forall. intros a Ha. rewrite Forall_forall in H2. apply H2.
    rewrite firstn_skipn in *. clear - Ha. revert j Ha. induction idx as [|b idx IH]; intros j Ha; [destruct j; exact Ha|].
    destruct j; cbn in *; [right; exact Ha|apply IH; exact Ha].
Qed.

Lemma conn_ext W zs F F' idx : length idx = length zs -> Forall (fun i => (i < n)%nat) idx ->
  (forall ks, length ks = length zs -> Forall (fun i => (i < n)%nat) ks -> F ks == F' ks) -> conn W zs F idx == conn W zs F' idx.
Proof.
  intros Hl Hr H. unfold conn. apply nsum_ext. intros j Hj. apply nsum_ext. intros d Hd.
  destruct (replaced_range j d idx Hd) as [H1 H2]; [lia|exact Hr|]. rewrite (H _ (eq_trans H1 Hl) H2). reflexivity.
Qed.

Lemma conn_mext W W' zs F idx : (forall z i d, In z zs -> (i < n)%nat -> (d < n)%nat -> W z i d == W' z i d) ->
  length idx = length zs -> Forall (fun i => (i < n)%nat) idx -> conn W zs F idx == conn W' zs F idx.
Proof.
  intros H Hl Hr. unfold conn. apply nsum_ext. intros j Hj. apply nsum_ext. intros d Hd.
  rewrite (H (nth j zs 0%Z) (nth j idx 0%nat) d); [reflexivity|apply nth_In; exact Hj| |exact Hd].
  rewrite Forall_forall in Hr. apply Hr. apply nth_In. lia.
Qed.

Lemma conn_sum W zs (c : nat -> K) (F : nat -> list nat -> K) m idx :
  conn W zs (fun ks => nsum m (fun p => c p * F p ks)) idx == nsum m (fun p => c p * conn W zs (F p) idx).
Proof.
  unfold conn. transitivity (nsum m (fun p => nsum (length zs) (fun j => nsum n (fun d => c p * (W (nth j zs 0%Z) (nth j idx 0%nat) d * F p (replaced j d idx)))))).
  - rewrite (nsum_swap m (length zs)). apply nsum_ext. intros j _. rewrite (nsum_swap m n). apply nsum_ext. intros d _. rewrite <- nsum_scale. apply nsum_ext. intros p _. ring.
  - apply nsum_ext. intros p _. rewrite <- nsum_scale. apply nsum_ext. intros j _. apply nsum_scale.
Qed.

Lemma conn_msum (W : nat -> Z -> nat -> nat -> K) (c : nat -> K) zs F m idx :
  conn (fun z i d => nsum m (fun p => c p * W p z i d)) zs F idx == nsum m (fun p => c p * conn (W p) zs F idx).
Proof.
  unfold conn. transitivity (nsum m (fun p => nsum (length zs) (fun j => nsum n (fun d => c p * (W p (nth j zs 0%Z) (nth j idx 0%nat) d * F (replaced j d idx)))))).
  - rewrite (nsum_swap m (length zs)). apply nsum_ext. intros j _. rewrite (nsum_swap m n). apply nsum_ext. intros d _. rewrite <- nsum_scale_r. apply nsum_ext. intros p _. ring.
  - apply nsum_ext. intros p _. rewrite <- nsum_scale. apply nsum_ext. intros j _. apply nsum_scale.
Qed.

(** The product rule for a change of frame. *)
Lemma frame_change (k : nat) (M W W' : Z -> nat -> nat -> K) zs :
  (forall z i p, In z zs -> (i < n)%nat -> (p < n)%nat ->
     kdiff (y k) (M z i p) + nsum n (fun d => W' z i d * M z d p) == nsum n (fun q => M z i q * W z q p)) ->
  forall F dF idx, length idx = length zs -> Forall (fun i => (i < n)%nat) idx ->
  (forall ks, length ks = length zs -> Forall (fun i => (i < n)%nat) ks -> kdiff (y k) (F ks) == dF ks) ->
  kdiff (y k) (act n (map M zs) F idx) + conn W' zs (act n (map M zs) F) idx ==
  act n (map M zs) (fun ks => dF ks + conn W zs F ks) idx.
Proof.
  induction zs as [|z zs IH]; intros HM F dF idx Hl Hr HF.
  - destruct idx; [|discriminate Hl]. cbn [map]. rewrite (kdiff_proper _ _ _ (act_nil n F)), act_nil.
    rewrite (HF [] eq_refl (Forall_nil _)). unfold conn. cbn. ring.
  - destruct idx as [|i idx]; [discriminate Hl|]. cbn in Hl. injection Hl as Hl.
    inversion Hr as [|i' l Hi Hr' E]; subst i' l. cbn [map].
    assert (IH' : forall p, (p < n)%nat ->
      kdiff (y k) (act n (map M zs) (fun ks => F (p :: ks)) idx) + conn W' zs (act n (map M zs) (fun ks => F (p :: ks))) idx ==
      act n (map M zs) (fun ks => dF (p :: ks) + conn W zs (fun ks' => F (p :: ks')) ks) idx).
    { intros p Hp. apply IH; [intros z' i' p' Hz; apply HM; right; exact Hz|exact Hl|exact Hr'|].
      intros ks K1 K2. apply HF; [cbn; congruence|constructor; assumption]. }
    rewrite (kdiff_proper _ _ _ (act_cons n (M z) (map M zs) F i idx)), kdiff_nsum, conn_cons.
    set (P p := act n (map M zs) (fun ks => F (p :: ks)) idx).
    assert (E1 : nsum n (fun d => W' z i d * act n (M z :: map M zs) F (d :: idx)) == nsum n (fun p => nsum n (fun d => W' z i d * M z d p) * P p)).
    { transitivity (nsum n (fun d => nsum n (fun p => W' z i d * (M z d p * P p)))).
      - apply nsum_ext. intros d _. rewrite act_cons. symmetry. apply nsum_scale.
      - rewrite nsum_swap. apply nsum_ext. intros p _. rewrite <- nsum_scale_r. apply nsum_ext. intros d _. ring. }
    assert (E2 : conn W' zs (fun ks => act n (M z :: map M zs) F (i :: ks)) idx == nsum n (fun p => M z i p * conn W' zs (act n (map M zs) (fun ks => F (p :: ks))) idx)).
    { rewrite <- conn_sum. apply conn_ext; [exact Hl|exact Hr'|]. intros ks _ _. apply act_cons. }
    rewrite E1, E2, act_cons.
    transitivity (nsum n (fun p => nsum n (fun q => M z i q * W z q p) * P p) +
                  nsum n (fun p => M z i p * act n (map M zs) (fun ks => dF (p :: ks) + conn W zs (fun ks' => F (p :: ks')) ks) idx)).
    + transitivity (nsum n (fun p => (kdiff (y k) (M z i p) + nsum n (fun d => W' z i d * M z d p)) * P p) +
         nsum n (fun p => M z i p * (kdiff (y k) (P p) + conn W' zs (act n (map M zs) (fun ks => F (p :: ks))) idx))).
      * rewrite <- !nsum_add. apply nsum_ext. intros p _. rewrite kdiff_mul. fold (P p). ring.
      * apply kadd_proper; apply nsum_ext; intros p Hp; [rewrite (HM z i p (or_introl eq_refl) Hi Hp); reflexivity|].
        unfold P. rewrite (IH' p Hp). reflexivity.
    + assert (E3 : nsum n (fun p => nsum n (fun q => M z i q * W z q p) * P p) ==
         nsum n (fun q => M z i q * act n (map M zs) (fun ks => nsum n (fun p => W z q p * F (p :: ks))) idx)).
      { transitivity (nsum n (fun q => nsum n (fun p => M z i q * (W z q p * P p)))).
        - rewrite nsum_swap. apply nsum_ext. intros p _. rewrite <- nsum_scale_r. apply nsum_ext. intros q _. ring.
        - apply nsum_ext. intros q _. rewrite nsum_scale. apply kmul_proper; [reflexivity|].
          rewrite (act_nsum n n (map M zs) (fun p ks => W z q p * F (p :: ks)) idx). apply nsum_ext. intros p _. unfold P. rewrite act_scale by (rewrite map_length; lia). reflexivity. }
      rewrite E3, <- nsum_add. apply nsum_ext. intros q _.
      assert (E4 : act n (map M zs) (fun ks => dF (q :: ks) + conn W (z :: zs) F (q :: ks)) idx ==
        act n (map M zs) (fun ks => nsum n (fun p => W z q p * F (p :: ks))) idx +
        act n (map M zs) (fun ks => dF (q :: ks) + conn W zs (fun ks' => F (q :: ks')) ks) idx).
      { rewrite <- act_add. apply act_ext; [rewrite map_length; lia|exact Hr'|]. intros ks _ _. rewrite conn_cons. ring. }
      rewrite E4. ring.
Qed.

Definition wz (H : nat -> nat -> nat -> K) (k : nat) (z : Z) (i d : nat) : K := if (z =? 1)%Z then H i k d else - H d k i.

Lemma covariant_conn m xx H zs T k idx : m = n -> covariant_of m xx H zs T k idx == kdiff (xx k) (T idx) + conn (wz H k) zs T idx.
Proof.
  intros ->. unfold covariant_of, conn, wz. apply kadd_proper; [reflexivity|]. apply nsum_ext. intros j _.
  destruct (nth j zs 0 =? 1)%Z; [reflexivity|]. rewrite <- nsum_opp. apply nsum_ext. intros d _. ring.
Qed.

Let M (z : Z) : nat -> nat -> K := jac J JI z.
Let Wt (k : nat) (z : Z) (i d : nat) : K := nsum n (fun m => J m k * s (wz G m z i d)).

Lemma frame k z i p : (k < n)%nat -> (i < n)%nat -> (p < n)%nat ->
  kdiff (y k) (M z i p) + nsum n (fun d => wz G' k z i d * M z d p) == nsum n (fun q => M z i q * Wt k z q p).
Proof.
  intros Hk Hi Hp. unfold M, Wt, wz, jac. destruct (z =? 1)%Z.
  - set (f a := kdiff (y k) (JI i a)). set (Gt a r := nsum n (fun m => J m k * s (G a m r))).
    destruct HJ as [J1 J2].
    assert (H0 : forall b, (b < n)%nat -> nsum n (fun a => f a * J a b) == - nsum n (fun a => JI i a * kdiff (y k) (J a b))).
    { intros b Hb. assert (E : kdiff (y k) (nsum n (fun a => JI i a * J a b)) == k0).
      { rewrite (kdiff_proper _ _ _ (J2 i b Hi Hb)). unfold kdelta. destruct (Nat.eqb i b); [apply kdiff_1|apply kdiff_0]. }
      rewrite kdiff_nsum in E. rewrite <- nsum_opp. transitivity (nsum n (fun a => f a * J a b) - k0); [ring|]. rewrite <- E, <- nsum_sub.
      apply nsum_ext. intros a _. rewrite kdiff_mul. unfold f. ring. }
    assert (H1 : f p == nsum n (fun b => nsum n (fun a => f a * J a b) * JI b p)).
    { transitivity (nsum n (fun a => f a * kdelta a p)); [symmetry; apply (nsum_delta_r n p f Hp)|].
      transitivity (nsum n (fun a => nsum n (fun b => f a * (J a b * JI b p)))).
      - apply nsum_ext. intros a Ha. rewrite nsum_scale, (J1 a p Ha Hp). reflexivity.
      - rewrite nsum_swap. apply nsum_ext. intros b _. rewrite <- nsum_scale_r. apply nsum_ext. intros a _. ring. }
    fold (f p). rewrite H1.
    assert (H2 : forall b, (b < n)%nat -> nsum n (fun a => JI i a * kdiff (y k) (J a b)) == G' i k b - nsum n (fun a => JI i a * nsum n (fun r => Gt a r * J r b))).
    { intros b Hb.
      transitivity (nsum n (fun a => JI i a * nsum n (fun c => J a c * G' c k b)) - nsum n (fun a => JI i a * nsum n (fun r => Gt a r * J r b))).
      - rewrite <- nsum_sub. apply nsum_ext. intros a Ha. rewrite (HC a k b Ha Hk Hb).
        assert (E : nsum n (fun q => nsum n (fun r => J q k * J r b * s (G a q r))) == nsum n (fun r => Gt a r * J r b)).
        { rewrite nsum_swap. apply nsum_ext. intros r _. unfold Gt. rewrite <- nsum_scale_r. apply nsum_ext. intros q _. ring. }
        rewrite E. ring.
      - apply ksub_proper; [|reflexivity]. symmetry. apply (solve_J (fun c => G' c k b) (fun a => nsum n (fun c => J a c * G' c k b)) i Hi). intros a _. reflexivity. }
    transitivity (nsum n (fun b => (nsum n (fun a => JI i a * nsum n (fun r => Gt a r * J r b)) - G' i k b) * JI b p) + nsum n (fun d => G' i k d * JI d p)).
    { apply kadd_proper; [|reflexivity]. apply nsum_ext. intros b Hb. rewrite (H0 b Hb), (H2 b Hb). ring. }
    transitivity (nsum n (fun b => nsum n (fun a => JI i a * nsum n (fun r => Gt a r * J r b)) * JI b p)).
    { rewrite <- nsum_add. apply nsum_ext. intros b _. ring. }
    transitivity (nsum n (fun a => JI i a * nsum n (fun r => Gt a r * nsum n (fun b => J r b * JI b p)))).
    + transitivity (nsum n (fun b => nsum n (fun a => nsum n (fun r => JI i a * (Gt a r * (J r b * JI b p)))))).
      * apply nsum_ext. intros b _. rewrite <- nsum_scale_r. apply nsum_ext. intros a _. rewrite <- nsum_scale, <- nsum_scale_r. apply nsum_ext. intros r _. ring.
      * rewrite nsum_swap. apply nsum_ext. intros a _. rewrite nsum_swap. rewrite <- nsum_scale. apply nsum_ext. intros r _. rewrite <- !nsum_scale. reflexivity.
    + apply nsum_ext. intros a _. apply kmul_proper; [reflexivity|].
      transitivity (nsum n (fun r => Gt a r * kdelta r p)); [|apply (nsum_delta_r n p (fun r => Gt a r) Hp)].
      apply nsum_ext. intros r Hr. rewrite (J1 r p Hr Hp). reflexivity.
  - rewrite (HC p k i Hp Hk Hi).
    transitivity (nsum n (fun d => J p d * G' d k i) + nsum n (fun d => - G' d k i * J p d) - nsum n (fun q => nsum n (fun r => J q k * J r i * s (G p q r)))); [ring|].
    rewrite <- nsum_add. rewrite nsum_zero' by (intros d _; ring). rewrite nsum_swap.
    transitivity (nsum n (fun r => - nsum n (fun q => J q k * J r i * s (G p q r)))); [rewrite nsum_opp; ring|].
    apply nsum_ext. intros r _. rewrite <- nsum_opp, <- nsum_scale. apply nsum_ext. intros q _. rewrite hom_opp. ring.
Qed.

Lemma covariant_change zs T k idx : (k < n)%nat -> in_range n (length zs) idx ->
  (forall ks l, in_range n (length zs) ks -> (l < n)%nat -> kdiff (y l) (T ks) == k0) ->
  covariant_of n y G' zs (act n (map (jac J JI) zs) (fun ks => s (T ks))) k idx ==
  nsum n (fun m => J m k * act n (map (jac J JI) zs) (fun ks => s (covariant_of n x G zs T m ks)) idx).
Proof.
  intros Hk [Hl Hr] HT. change (map (jac J JI) zs) with (map M zs). rewrite covariant_conn by reflexivity.
  rewrite (frame_change k M (Wt k) (wz G' k) zs (fun z i p _ Hi Hp => frame k z i p Hk Hi Hp)
    (fun ks => s (T ks)) (fun ks => nsum n (fun m => J m k * s (kdiff (x m) (T ks)))) idx Hl Hr).
  - rewrite <- act_nsum_scale. apply act_ext; [rewrite map_length; lia|exact Hr|]. intros ks K1 K2.
    unfold Wt. rewrite conn_msum, <- nsum_add. apply nsum_ext. intros m _.
    rewrite (hom_proper _ Hs _ _ (covariant_conn n x G zs T m ks eq_refl)), (hom_add _ Hs).
    transitivity (J m k * (s (kdiff (x m) (T ks)) + conn (fun z i d => s (wz G m z i d)) zs (fun ks0 => s (T ks0)) ks)); [ring|].
    apply kmul_proper; [reflexivity|]. apply kadd_proper; [reflexivity|]. unfold conn. rewrite (hom_nsum s) by exact Hs. apply nsum_ext. intros j _.
    rewrite (hom_nsum s) by exact Hs. apply nsum_ext. intros d _. rewrite (hom_mul _ Hs). reflexivity.
  - intros ks K1 K2. rewrite (Hchain (T ks) k Hk (fun l Hl' => HT ks l (conj K1 K2) Hl')). apply nsum_ext. intros m _. ring.
Qed.

End Change.
