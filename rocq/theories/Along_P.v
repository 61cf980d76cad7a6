(** Sums over the values of labels. *)
From Verif Require Import Alg Alg_P Arr Arr_P Spec UtilsM Utils_P Arr2_P Act_P RL_P Tensor_P SpecForm.
From Coq Require Import Permutation Bool.
Local Open Scope K_scope.

Section Along.
Context {A : AlgOps} {L : AlgLaws A}.
Add Ring Kring : kring (setoid keq_equiv kring_ext).
Variable n : nat.
Context {X : Type} (eqb : X -> X -> bool) (eqb_spec : forall a b, reflect (a = b) (eqb a b)).
Notation up := (upd eqb).
Notation asg := (X -> nat).
Notation mat := (nat -> nat -> K).
Implicit Types (S : X -> Prop) (F P Q : asg -> K) (f h : asg) (y z : X) (M N : mat).

Lemma up_same f y k : up f y k y = k.
Proof. unfold upd. destruct (eqb_spec y y); congruence. Qed.
Lemma up_other f y k x : x <> y -> up f y k x = f x.
Proof. unfold upd. destruct (eqb_spec x y); congruence. Qed.
Ltac ups := repeat first [rewrite up_same | rewrite up_other by congruence].
Lemma up_comm f y z k l x : y <> z -> up (up f y k) z l x = up (up f z l) y k x.
Proof. intros H. unfold upd. destruct (eqb_spec x z), (eqb_spec x y); congruence. Qed.
Lemma up_twice f y k l x : up (up f y k) y l x = up f y l x.
Proof. unfold upd. destruct (eqb_spec x y); congruence. Qed.
Lemma up_id f y x : up f y (f y) x = f x.
Proof. unfold upd. destruct (eqb_spec x y); congruence. Qed.

Definition ok f : Prop := forall x, (f x < n)%nat.
Lemma ok_up f y k : ok f -> (k < n)%nat -> ok (up f y k).
Proof. intros H Hk x. unfold upd. destruct (eqb x y); auto. Qed.

(** [F] depends on the labels in [S] only. *)
Definition dep (S : X -> Prop) F : Prop := forall f h, (forall x, S x -> f x = h x) -> F f == F h.
Definition pure F : Prop := dep (fun _ => True) F.
Lemma dep_weaken (S S' : X -> Prop) F : (forall x, S x -> S' x) -> dep S F -> dep S' F.
Proof. intros H D f h E. apply D. auto. Qed.
Lemma dep_pure (S : X -> Prop) F : dep S F -> pure F.
Proof. apply dep_weaken. auto. Qed.

Definition along y M F f : K := nsum n (fun k => M (f y) k * F (up f y k)).
Fixpoint alongs (l : list (X * mat)) F f : K :=
  match l with [] => F f | (y, M) :: l' => along y M (alongs l' F) f end.

Lemma along_dep (S : X -> Prop) y M F : S y -> dep S F -> dep S (along y M F).
Proof.
  intros Sy D f h E. unfold along. apply nsum_ext. intros k _. rewrite (E y Sy). apply kmul_proper; [reflexivity|].
  apply D. intros x Hx. unfold upd. destruct (eqb x y); auto.
Qed.
Lemma alongs_dep (S : X -> Prop) l F : (forall y, In y (map fst l) -> S y) -> dep S F -> dep S (alongs l F).
Proof.
  intros H D. induction l as [|[y M] l IH]; [exact D|]. cbn [alongs]. apply along_dep; [apply H; left; reflexivity|].
  apply IH. intros z Hz. apply H. right; exact Hz.
Qed.
(** What does not depend on a label that is summed over. *)
Lemma alongs_pure l F : pure F -> pure (alongs l F).
Proof. apply alongs_dep. auto. Qed.

Lemma along_ext y M F P f : (forall k, (k < n)%nat -> F (up f y k) == P (up f y k)) -> along y M F f == along y M P f.
Proof. intros H. apply nsum_ext. intros k Hk. rewrite H by exact Hk. reflexivity. Qed.
Lemma alongs_ext l F P f : ok f -> (forall h, ok h -> (forall x, ~ In x (map fst l) -> h x = f x) -> F h == P h) -> alongs l F f == alongs l P f.
Proof.
  revert f. induction l as [|[y M] l IH]; intros f Of H; [apply H; [exact Of|auto]|]. cbn [alongs]. apply along_ext. intros k Hk.
  apply IH; [apply ok_up; assumption|]. intros h Oh Eh. apply H; [exact Oh|]. intros x Hx. cbn [map fst In] in Hx.
  rewrite Eh by tauto. apply up_other. intros ->. tauto.
Qed.
Lemma alongs_eqn l F P f : ok f -> (forall h, ok h -> F h == P h) -> alongs l F f == alongs l P f.
Proof. intros Of H. apply alongs_ext; auto. Qed.

Lemma along_comm y z M N F f : pure F -> y <> z -> along y M (along z N F) f == along z N (along y M F) f.
Proof.
  intros D H. unfold along.
  transitivity (nsum n (fun k => nsum n (fun l => M (f y) k * N (f z) l * F (up (up f y k) z l)))).
  { apply nsum_ext. intros k _. rewrite <- nsum_scale. apply nsum_ext. intros l _. rewrite up_other by congruence. ring. }
  rewrite nsum_swap. apply nsum_ext. intros l _. rewrite <- nsum_scale. apply nsum_ext. intros k _. rewrite up_other by congruence.
  rewrite (D (up (up f y k) z l) (up (up f z l) y k)); [ring|]. intros x _. apply up_comm, H.
Qed.
Lemma alongs_app l l' F f : alongs (l ++ l') F f = alongs l (alongs l' F) f.
Proof.
  revert f. induction l as [|[y M] l IH]; intros f; [reflexivity|]. cbn [alongs app]. unfold along. apply nsum_eq. intros k _. rewrite IH. reflexivity.
Qed.
Lemma alongs_perm l l' F f : ok f -> pure F -> NoDup (map fst l) -> Permutation l l' -> alongs l F f == alongs l' F f.
Proof.
  intros Of D Nd H. revert f Of Nd. induction H as [|[y M] l l' H IH|[y M] [z N] l|l l' l'' H1 IH1 H2 IH2]; intros f Of Nd.
  - reflexivity.
  - cbn [alongs]. apply along_ext. intros k Hk. apply IH; [apply ok_up; assumption|]. inversion Nd; assumption.
  - cbn [alongs]. apply along_comm; [apply alongs_pure, D|]. inversion Nd as [|? ? H1 _]; subst. intros ->. apply H1. left; reflexivity.
  - rewrite IH1 by assumption. apply IH2; [exact Of|]. eapply Permutation_NoDup; [apply Permutation_map, H1|exact Nd].
Qed.
(** A sum over one more label goes inside. *)
Lemma along_alongs y M l F f : ok f -> pure F -> ~ In y (map fst l) -> along y M (alongs l F) f == alongs l (along y M F) f.
Proof.
  intros Of D. revert f Of. induction l as [|[z N] l IH]; intros f Of H; [reflexivity|]. cbn [alongs map fst In] in *.
  rewrite along_comm; [|apply alongs_pure, D|intros ->; tauto]. apply along_ext. intros k Hk. apply IH; [apply ok_up; assumption|tauto].
Qed.

Lemma along_comp y M N F f : pure F -> along y M (along y N F) f == along y (mcomp n M N) F f.
Proof.
  intros D. unfold along, mcomp.
  transitivity (nsum n (fun k => nsum n (fun l => M (f y) k * N k l * F (up f y l)))).
  { apply nsum_ext. intros k _. rewrite <- nsum_scale. apply nsum_ext. intros l _. ups.
    rewrite (D (up (up f y k) y l) (up f y l)); [ring|]. intros x _. apply up_twice. }
  rewrite nsum_swap. apply nsum_ext. intros l _. rewrite <- nsum_scale_r. reflexivity.
Qed.
Lemma along_id y M F f : ok f -> pure F -> meq n M kdelta -> along y M F f == F f.
Proof.
  intros Of D H. unfold along. transitivity (nsum n (fun k => kdelta (f y) k * F (up f y k))).
  { apply nsum_ext. intros k Hk. rewrite (H (f y) k (Of y) Hk). reflexivity. }
  rewrite nsum_delta_l by apply Of. apply D. intros x _. apply up_id.
Qed.
Lemma alongs_mext l l' F f : ok f -> pure F -> map fst l = map fst l' -> Forall2 (fun a b => meq n (snd a) (snd b)) l l' -> alongs l F f == alongs l' F f.
Proof.
  intros Of D E H. revert f Of E. induction H as [|[y M] [z N] l l' H1 H2 IH]; intros f Of E; [reflexivity|]. cbn [map fst snd] in *. injection E as -> E.
  cbn [alongs]. unfold along. apply nsum_ext. intros k Hk. rewrite (H1 (f z) k (Of z) Hk). rewrite IH; [reflexivity|apply ok_up; assumption|exact E].
Qed.
Lemma alongs_comp s Ms Ns F f : ok f -> pure F -> NoDup s -> length Ms = length s -> length Ns = length s ->
  alongs (combine s Ms) (alongs (combine s Ns) F) f == alongs (combine s (map (fun mn => mcomp n (fst mn) (snd mn)) (combine Ms Ns))) F f.
Proof.
  intros Of D Nd. revert Ms Ns f Of. induction s as [|y s IH]; intros [|M Ms] [|N Ns] f Of H1 H2; cbn [length] in *; try discriminate; [reflexivity|].
  inversion Nd as [|? ? Ny Nd']; subst. cbn [combine map fst snd alongs].
  assert (Hs : forall (Ks : list mat), map fst (combine s Ks) = firstn (length Ks) s).
  { clear. induction s as [|x s IHs]; intros [|Kx Ks]; try reflexivity. cbn [combine map fst length firstn]. rewrite IHs. reflexivity. }
  assert (Hy : forall (Ks : list mat), ~ In y (map fst (combine s Ks))).
  { intros Ks. rewrite Hs. intros H. apply Ny. rewrite <- (firstn_skipn (length Ks) s). apply in_or_app. auto. }
  transitivity (along y M (along y N (alongs (combine s Ms) (alongs (combine s Ns) F))) f).
  { apply along_ext. intros k Hk. symmetry. apply along_alongs; [apply ok_up; assumption|apply alongs_pure, D|apply Hy]. }
  rewrite along_comp by (apply alongs_pure, alongs_pure, D). apply along_ext. intros k Hk. apply IH; auto. apply ok_up; assumption.
Qed.
Lemma alongs_id l F f : ok f -> pure F -> Forall (fun a => meq n (snd a) kdelta) l -> alongs l F f == F f.
Proof.
  intros Of D H. revert f Of. induction H as [|[y M] l H1 H2 IH]; intros f Of; [reflexivity|]. cbn [alongs snd] in *.
  rewrite along_id; [apply IH, Of|exact Of|apply alongs_pure, D|exact H1].
Qed.

(** Linearity *)
Lemma alongs_add l F P f : alongs l (fun h => F h + P h) f == alongs l F f + alongs l P f.
Proof.
  revert f. induction l as [|[y M] l IH]; intros f; [reflexivity|]. cbn [alongs]. unfold along. rewrite <- nsum_add. apply nsum_ext. intros k _. rewrite IH. ring.
Qed.
Lemma alongs_scale l c F f : alongs l (fun h => c * F h) f == c * alongs l F f.
Proof.
  revert f. induction l as [|[y M] l IH]; intros f; [reflexivity|]. cbn [alongs]. unfold along. rewrite <- nsum_scale. apply nsum_ext. intros k _. rewrite IH. ring.
Qed.
Lemma alongs_opp l F f : alongs l (fun h => - F h) f == - alongs l F f.
Proof.
  revert f. induction l as [|[y M] l IH]; intros f; [reflexivity|]. cbn [alongs]. unfold along. rewrite <- nsum_opp. apply nsum_ext. intros k _. rewrite IH. ring.
Qed.
Lemma alongs_sub l F P f : alongs l (fun h => F h - P h) f == alongs l F f - alongs l P f.
Proof.
  revert f. induction l as [|[y M] l IH]; intros f; [reflexivity|]. cbn [alongs]. unfold along. rewrite <- nsum_sub. apply nsum_ext. intros k _. rewrite IH. ring.
Qed.
Lemma alongs_hom s l F f : hom s -> s (alongs l F f) == alongs (map (fun a => (fst a, hmat s (snd a))) l) (fun h => s (F h)) f.
Proof.
  intros Hs. revert f. induction l as [|[y M] l IH]; intros f; [reflexivity|]. cbn [alongs map fst snd]. unfold along. rewrite (hom_nsum s) by exact Hs.
  apply nsum_ext. intros k _. rewrite (hom_mul _ Hs), IH. reflexivity.
Qed.
(** A factor that does not depend on the labels *)
Lemma alongs_factor l P Q f : dep (fun x => ~ In x (map fst l)) Q -> alongs l (fun h => P h * Q h) f == alongs l P f * Q f.
Proof.
  intros D. revert f. assert (G : forall l', (forall x, In x (map fst l') -> In x (map fst l)) -> forall f, alongs l' (fun h => P h * Q h) f == alongs l' P f * Q f).
  2:{ apply G. auto. }
  induction l' as [|[y M] l' IH]; intros H f; [reflexivity|]. cbn [alongs]. unfold along. rewrite <- nsum_scale_r. apply nsum_ext. intros k _.
  rewrite IH by (intros x Hx; apply H; right; exact Hx). rewrite (D (up f y k) f); [ring|]. intros x Hx. apply up_other. intros ->. apply Hx, H. left; reflexivity.
Qed.

(** *** Contractions of pairs of labels *)
Fixpoint con (C : list (X * X * mat)) F f : K :=
  match C with
  | [] => F f
  | (a, b, N) :: C' => nsum n (fun k => nsum n (fun l => N k l * con C' F (up (up f a k) b l)))
  end.
Definition ends (C : list (X * X * mat)) : list X := flat_map (fun e => [fst (fst e); snd (fst e)]) C.

Lemma con_ext C F P f : ok f -> (forall h, ok h -> (forall x, ~ In x (ends C) -> h x = f x) -> F h == P h) -> con C F f == con C P f.
Proof.
  revert f. induction C as [|[[a b] N] C IH]; intros f Of H; [apply H; [exact Of|auto]|]. cbn [con]. apply nsum_ext. intros k Hk. apply nsum_ext. intros l Hl.
  rewrite IH; [reflexivity|apply ok_up; [apply ok_up; assumption|assumption]|]. intros h Oh Eh. apply H; [exact Oh|]. intros x Hx.
  cbn [ends flat_map fst snd app In] in Hx. rewrite Eh by (intros Hn; apply Hx; right; right; exact Hn).
  rewrite !up_other; [reflexivity|intros ->; tauto|intros ->; tauto].
Qed.
Lemma con_dep (S : X -> Prop) C F : dep (fun x => S x \/ In x (ends C)) F -> dep S (con C F).
Proof.
  revert S. induction C as [|[[a b] N] C IH]; intros S D.
  - intros f h E. apply D. intros x [Hx|[]]. auto.
  - intros f h E. cbn [con]. apply nsum_ext. intros k _. apply nsum_ext. intros l _. apply kmul_proper; [reflexivity|].
    assert (D' : dep (fun x => (S x \/ x = a \/ x = b) \/ In x (ends C)) F).
    { eapply dep_weaken; [|exact D]. intros x. cbn [ends flat_map fst snd app In]. fold (ends C). intuition. }
    apply (IH _ D'). intros x Hx. unfold upd. destruct (eqb_spec x b); [reflexivity|]. destruct (eqb_spec x a); [reflexivity|]. apply E. tauto.
Qed.
Lemma con_pure C F : pure F -> pure (con C F).
Proof. intros D. apply con_dep. eapply dep_weaken; [|exact D]. auto. Qed.

Lemma con_along C y M F f : ok f -> pure F -> ~ In y (ends C) -> con C (along y M F) f == along y M (con C F) f.
Proof.
  intros Of D. revert f Of. induction C as [|[[a b] N] C IH]; intros f Of Hy; [reflexivity|].
  cbn [ends flat_map fst snd app In] in Hy. fold (ends C) in Hy. cbn [con].
  transitivity (nsum n (fun k => nsum n (fun l => nsum n (fun p => M (f y) p * (N k l * con C F (up (up (up f y p) a k) b l)))))).
  { apply nsum_ext. intros k Hk. apply nsum_ext. intros l Hl. rewrite IH by (try (apply ok_up; [apply ok_up|]); tauto).
    unfold along. rewrite <- nsum_scale. apply nsum_ext. intros p _. rewrite !up_other by (intros ->; tauto).
    rewrite (con_pure C F D (up (up (up f a k) b l) y p) (up (up (up f y p) a k) b l)); [ring|].
    intros x _. unfold upd. destruct (eqb_spec x y), (eqb_spec x a), (eqb_spec x b); subst; try reflexivity; tauto. }
  unfold along. cbn [con].
  transitivity (nsum n (fun k => nsum n (fun p => nsum n (fun l => M (f y) p * (N k l * con C F (up (up (up f y p) a k) b l)))))).
  { apply nsum_ext. intros k _. apply nsum_swap. }
  rewrite nsum_swap. apply nsum_ext. intros p _. rewrite <- nsum_scale. apply nsum_ext. intros k _. rewrite <- nsum_scale. reflexivity.
Qed.
Lemma con_alongs C l F f : ok f -> pure F -> (forall y, In y (map fst l) -> ~ In y (ends C)) -> con C (alongs l F) f == alongs l (con C F) f.
Proof.
  intros Of D. revert f Of. induction l as [|[y M] l IH]; intros f Of H; [reflexivity|]. cbn [alongs]. rewrite con_along.
  - apply along_ext. intros k Hk. apply IH; [apply ok_up; assumption|]. intros z Hz. apply H. right; exact Hz.
  - exact Of.
  - apply alongs_pure, D.
  - apply H. left; reflexivity.
Qed.

(** A contraction of two labels that are both moved *)
Record pair := mkPair { p_a : X; p_b : X; p_N : mat; p_Ma : mat; p_Mb : mat; p_P : mat }.
Definition pair_ok (e : pair) : Prop :=
  forall p q, (p < n)%nat -> (q < n)%nat -> nsum n (fun k => nsum n (fun l => p_N e k l * (p_Ma e k p * p_Mb e l q))) == p_P e p q.
Definition pair_N (e : pair) := (p_a e, p_b e, p_N e).
Definition pair_P (e : pair) := (p_a e, p_b e, p_P e).
Definition pair_M (e : pair) := [(p_a e, p_Ma e); (p_b e, p_Mb e)].
Definition pair_ends (e : pair) := [p_a e; p_b e].

Lemma ends_N l : ends (map pair_N l) = flat_map pair_ends l.
Proof. unfold ends. induction l as [|e l IH]; [reflexivity|]. cbn [map flat_map]. rewrite IH. reflexivity. Qed.
Lemma ends_P l : ends (map pair_P l) = flat_map pair_ends l.
Proof. unfold ends. induction l as [|e l IH]; [reflexivity|]. cbn [map flat_map]. rewrite IH. reflexivity. Qed.
Lemma fst_M l : map fst (flat_map pair_M l) = flat_map pair_ends l.
Proof. induction l as [|e l IH]; [reflexivity|]. cbn [flat_map]. rewrite map_app, IH. reflexivity. Qed.

Lemma con_pairs l F f : ok f -> pure F -> NoDup (flat_map pair_ends l) -> Forall pair_ok l ->
  con (map pair_N l) (alongs (flat_map pair_M l) F) f == con (map pair_P l) F f.
Proof.
  intros Of D. revert f Of F D. induction l as [|e l IH]; intros f Of F D Nd H; [reflexivity|].
  inversion H as [|? ? He Hl]; subst. destruct e as [a b N Ma Mb P]. cbn [flat_map pair_ends p_a p_b app] in Nd.
  inversion Nd as [|? ? Na Nd1]; subst. inversion Nd1 as [|? ? Nb Nd2]; subst. cbn [In] in Na.
  cbn [map con pair_N pair_P p_a p_b p_N p_P flat_map pair_M p_Ma p_Mb app alongs].
  transitivity (nsum n (fun k => nsum n (fun m => N k m * nsum n (fun p => Ma k p * nsum n (fun q => Mb m q * con (map pair_P l) F (up (up f a p) b q)))))).
  { apply nsum_ext. intros k Hk. apply nsum_ext. intros m Hm. apply kmul_proper; [reflexivity|].
    assert (Og : ok (up (up f a k) b m)) by (apply ok_up; [apply ok_up; assumption|assumption]).
    rewrite con_along by (try (apply along_dep; [exact I|apply alongs_pure, D]); try exact Og; rewrite ends_N; tauto).
    unfold along at 1. rewrite (up_other _ b m a) by (intros ->; tauto). rewrite up_same. apply nsum_ext. intros p Hp. apply kmul_proper; [reflexivity|].
    assert (Oh : ok (up (up (up f a k) b m) a p)) by (apply ok_up; assumption).
    rewrite con_along by (try (apply alongs_pure, D); try exact Oh; rewrite ends_N; tauto).
    unfold along. rewrite (up_other _ a p b) by (intros ->; tauto). rewrite up_same. apply nsum_ext. intros q Hq. apply kmul_proper; [reflexivity|].
    rewrite IH by (try (apply ok_up); tauto). apply (con_pure _ F D). intros x _. unfold upd.
    destruct (eqb_spec x b), (eqb_spec x a); reflexivity. }
  transitivity (nsum n (fun p => nsum n (fun q => nsum n (fun k => nsum n (fun m => N k m * (Ma k p * Mb m q))) * con (map pair_P l) F (up (up f a p) b q)))).
  2:{ apply nsum_ext. intros p Hp. apply nsum_ext. intros q Hq. rewrite (He p q Hp Hq). reflexivity. }
  set (c := fun p q => con (map pair_P l) F (up (up f a p) b q)). symmetry.
  transitivity (nsum n (fun p => nsum n (fun q => nsum n (fun k => nsum n (fun m => N k m * (Ma k p * Mb m q) * c p q))))).
  { apply nsum_ext. intros p _. apply nsum_ext. intros q _. rewrite <- nsum_scale_r. apply nsum_ext. intros k _. rewrite <- nsum_scale_r. reflexivity. }
  transitivity (nsum n (fun k => nsum n (fun m => nsum n (fun p => nsum n (fun q => N k m * (Ma k p * Mb m q) * c p q))))).
  { transitivity (nsum n (fun p => nsum n (fun k => nsum n (fun q => nsum n (fun m => N k m * (Ma k p * Mb m q) * c p q))))).
    { apply nsum_ext. intros p _. apply nsum_swap. }
    rewrite nsum_swap. apply nsum_ext. intros k _.
    transitivity (nsum n (fun p => nsum n (fun m => nsum n (fun q => N k m * (Ma k p * Mb m q) * c p q)))).
    { apply nsum_ext. intros p _. apply nsum_swap. }
    apply nsum_swap. }
  apply nsum_ext. intros k _. apply nsum_ext. intros m _. rewrite <- nsum_scale. apply nsum_ext. intros p _. rewrite <- !nsum_scale. apply nsum_ext. intros q _. unfold c. ring.
Qed.

Lemma con_hom s C F f : hom s -> s (con C F f) == con (map (fun e => (fst e, hmat s (snd e))) C) (fun h => s (F h)) f.
Proof.
  intros Hs. revert f. induction C as [|[[a b] N] C IH]; intros f; [reflexivity|]. cbn [con map fst snd]. rewrite (hom_nsum s) by exact Hs.
  apply nsum_ext. intros k _. rewrite (hom_nsum s) by exact Hs. apply nsum_ext. intros l _. rewrite (hom_mul _ Hs), IH. reflexivity.
Qed.

Lemma con_perm C C' F f : ok f -> pure F -> NoDup (ends C) -> Permutation C C' -> con C F f == con C' F f.
Proof.
  intros Of D Nd H. revert f Of Nd. induction H as [|[[a b] N] C C' H IH|[[a b] N] [[a' b'] N'] C|C C' C'' H1 IH1 H2 IH2]; intros f Of Nd.
  - reflexivity.
  - cbn [con]. apply nsum_ext. intros k Hk. apply nsum_ext. intros l Hl. rewrite IH; [reflexivity|apply ok_up; [apply ok_up; assumption|assumption]|].
    cbn [ends flat_map fst snd app] in Nd. inversion Nd as [|? ? _ Nd1]; subst. inversion Nd1; assumption.
  - cbn [ends flat_map fst snd app] in Nd. inversion Nd as [|? ? Na Nd1]; subst. inversion Nd1 as [|? ? Nb Nd2]; subst. cbn [In] in Na, Nb. cbn [con].
    transitivity (nsum n (fun k => nsum n (fun l => nsum n (fun k' => nsum n (fun l' => N' k l * (N k' l' * con C F (up (up (up (up f a' k) b' l) a k') b l'))))))).
    { apply nsum_ext. intros k _. apply nsum_ext. intros l _. rewrite <- nsum_scale. apply nsum_ext. intros k' _. rewrite <- nsum_scale. reflexivity. }
    transitivity (nsum n (fun k' => nsum n (fun l' => nsum n (fun k => nsum n (fun l => N' k l * (N k' l' * con C F (up (up (up (up f a' k) b' l) a k') b l'))))))).
    { transitivity (nsum n (fun k => nsum n (fun k' => nsum n (fun l => nsum n (fun l' => N' k l * (N k' l' * con C F (up (up (up (up f a' k) b' l) a k') b l'))))))).
      { apply nsum_ext. intros k _. apply nsum_swap. }
      rewrite nsum_swap. apply nsum_ext. intros k' _.
      transitivity (nsum n (fun k => nsum n (fun l' => nsum n (fun l => N' k l * (N k' l' * con C F (up (up (up (up f a' k) b' l) a k') b l')))))).
      { apply nsum_ext. intros k _. apply nsum_swap. }
      apply nsum_swap. }
    apply nsum_ext. intros k' _. apply nsum_ext. intros l' _. rewrite <- nsum_scale. apply nsum_ext. intros k _. rewrite <- nsum_scale. apply nsum_ext. intros l _.
    rewrite (con_pure C F D (up (up (up (up f a' k) b' l) a k') b l') (up (up (up (up f a k') b l') a' k) b' l)); [ring|].
    intros x _. unfold upd. destruct (eqb_spec x b), (eqb_spec x a), (eqb_spec x b'), (eqb_spec x a'); subst; try reflexivity; tauto.
  - rewrite IH1 by assumption. apply IH2; [exact Of|]. eapply Permutation_NoDup; [|exact Nd]. unfold ends. apply Permutation_flat_map, H1.
Qed.

(** Components by their indices *)
Lemma act_alongs (labs : list X) Ms (F : list nat -> K) f : NoDup labs -> length Ms = length labs -> ok f ->
  act n Ms F (map f labs) == alongs (combine labs Ms) (fun h => F (map h labs)) f.
Proof.
  revert Ms F f. induction labs as [|y labs IH]; intros [|M Ms] F f Nd Hl Of; cbn [length] in Hl; try discriminate; [apply act_nil|].
  inversion Nd as [|? ? Ny Nd']; subst. cbn [map combine alongs]. rewrite act_cons. unfold along. apply nsum_ext. intros k Hk. apply kmul_proper; [reflexivity|].
  assert (E : map f labs = map (up f y k) labs). { apply map_ext_in. intros x Hx. symmetry. apply up_other. intros ->. contradiction. }
  rewrite E. rewrite (IH Ms (fun ks => F (k :: ks)) (up f y k) Nd' ltac:(lia) (ok_up f y k Of Hk)).
  apply alongs_ext; [apply ok_up; assumption|]. intros h Oh Eh.
  assert (Hy : ~ In y (map fst (combine labs Ms))).
  { intros H. apply in_map_iff in H as ([a b] & Ea & H). cbn in Ea. subst a. apply in_combine_l in H. contradiction. }
  rewrite (Eh y Hy), up_same. reflexivity.
Qed.
End Along.
