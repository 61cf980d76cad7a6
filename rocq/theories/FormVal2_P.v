(** The values of traces. *)
From Coq Require Import Permutation Bool Sorted.
From Verif Require Import Alg Alg_P Arr Arr_P Spec UtilsM Utils_P Arr2_P Act_P RL_P Tensor_P TensorM WorldM SpecWorld CalcM SpecCalc Calc_P Calc2_P Trace_P CurvM SpecCurv SpecForm Along_P Label_P FormVal_P Jac_P.
Local Open Scope K_scope.

Definition seen (s : list string) (q : nat) : bool := existsb (String.eqb (nth q s ""%string)) (firstn q s).
Definition labels (s : list string) : list lab := map (fun q => (seen s q, nth q s ""%string)) (seq 0 (length s)).
Definition slot (s : list string) (a : lab) : nat := nth (if fst a then 1 else 0) (occurrences s (snd a)) 0%nat.

Lemma seen_true s q : (q < length s)%nat -> seen s q = true <-> exists p, (p < q)%nat /\ nth p s ""%string = nth q s ""%string.
Proof.
  intros Hq. unfold seen. rewrite existsb_exists. split.
  - intros (x & Hx & E). apply String.eqb_eq in E. subst x. destruct (In_nth _ _ ""%string Hx) as (p & Hp & E). rewrite firstn_length in Hp.
    exists p. split; [lia|]. rewrite firstn_nth_lt in E by lia. exact E.
  - intros (p & Hp & E). exists (nth q s ""%string). split; [|apply String.eqb_refl]. rewrite <- E. rewrite <- (firstn_nth_lt s q p ""%string Hp).
    apply nth_In. rewrite firstn_length. lia.
Qed.
Lemma slot_label s q : (forall x, count String.eqb x s <= 2)%nat -> (q < length s)%nat -> slot s (seen s q, nth q s ""%string) = q.
Proof.
  intros Hc Hq. unfold slot. cbn [fst snd]. set (x := nth q s ""%string). assert (Hi : In q (occurrences s x)) by (apply occ_in; split; [exact Hq|reflexivity]).
  assert (Hl := occ_count s x). assert (H2 := Hc x). assert (Hs : StronglySorted lt (occurrences s x)) by apply seq_filter_sorted.
  destruct (occurrences s x) as [|p [|r [|u l]]] eqn:E; cbn [length] in Hl; [destruct Hi| | |lia].
  - destruct Hi as [->|[]]. destruct (seen s q) eqn:Es; [|reflexivity]. apply seen_true in Es as (p & Hp & Ep); [|exact Hq].
    assert (Hi : In p (occurrences s x)) by (apply occ_in; split; [lia|exact Ep]). rewrite E in Hi. destruct Hi as [->|[]]. lia.
  - assert (Hpr : (p < r)%nat). { inversion Hs as [|? ? _ Hf]; subst. inversion Hf; subst. assumption. }
    destruct Hi as [->|[->|[]]].
    + destruct (seen s q) eqn:Es; [|reflexivity]. apply seen_true in Es as (p & Hp & Ep); [|exact Hq].
      assert (Hi : In p (occurrences s x)) by (apply occ_in; split; [lia|exact Ep]). rewrite E in Hi. destruct Hi as [->|[->|[]]]; lia.
    + assert (Hip : In p (occurrences s x)) by (rewrite E; left; reflexivity). apply occ_in in Hip as [_ Hip].
      assert (Es : seen s q = true) by (apply seen_true; [exact Hq|]; exists p; auto). rewrite Es. reflexivity.
Qed.
Lemma slots s : (forall x, count String.eqb x s <= 2)%nat -> map (slot s) (labels s) = seq 0 (length s).
Proof.
  intros Hc. unfold labels. rewrite map_map. transitivity (map (fun q : nat => q) (seq 0 (length s))); [|apply map_id]. apply map_ext_in. intros q Hq. apply in_seq in Hq.
  apply slot_label; [exact Hc|lia].
Qed.
Lemma labels_nodup s : (forall x, count String.eqb x s <= 2)%nat -> NoDup (labels s).
Proof. intros Hc. apply (NoDup_map_inv (slot s)). rewrite slots by exact Hc. apply seq_NoDup. Qed.
Lemma labels_length s : length (labels s) = length s.
Proof. unfold labels. rewrite map_length. apply seq_length. Qed.
Lemma in_labels s b y : (forall x, count String.eqb x s <= 2)%nat -> In (b, y) (labels s) <-> if b then count String.eqb y s = 2%nat else In y s.
Proof.
  intros Hc. unfold labels. rewrite in_map_iff. split.
  - intros (q & E & Hq). apply in_seq in Hq. injection E as Eb Ey. assert (Hql : (q < length s)%nat) by lia.
    assert (Hi : In q (occurrences s y)) by (apply occ_in; auto). destruct b.
    + apply seen_true in Eb as (p & Hp & Ep); [|exact Hql]. assert (Hip : In p (occurrences s y)) by (apply occ_in; split; [lia|congruence]).
      assert (Hl := occ_count s y). specialize (Hc y). destruct (occurrences s y) as [|a [|c l]] eqn:E; cbn [length] in Hl; [destruct Hi| |lia].
      destruct Hi as [->|[]]. destruct Hip as [->|[]]. lia.
    + subst y. apply nth_In. exact Hql.
  - destruct b.
    + intros E. destruct (occ_two s y E) as (p & q & Eo & Hpq & Hq). assert (Hp' : In p (occurrences s y)) by (rewrite Eo; left; reflexivity).
      assert (Hq' : In q (occurrences s y)) by (rewrite Eo; right; left; reflexivity). apply occ_in in Hp' as [_ Hp']. apply occ_in in Hq' as [_ Hq'].
      exists q. split; [|apply in_seq; lia]. f_equal; [|exact Hq']. apply seen_true; [exact Hq|]. exists p. split; [exact Hpq|congruence].
    + intros Hy. assert (Hl := occ_count s y). assert (Hcy := proj1 (count_in y s) Hy).
      assert (Hs : StronglySorted lt (occurrences s y)) by apply seq_filter_sorted. destruct (occurrences s y) as [|q l] eqn:Eo; [cbn in Hl; lia|].
      assert (Hq' : In q (occurrences s y)) by (rewrite Eo; left; reflexivity). apply occ_in in Hq' as [Hq Hq'].
      exists q. split; [|apply in_seq; lia]. f_equal; [|exact Hq']. destruct (seen s q) eqn:Es; [|reflexivity]. apply seen_true in Es as (p & Hp & Ep); [|exact Hq].
      assert (Hi : In p (occurrences s y)) by (apply occ_in; split; [lia|congruence]). rewrite Eo in Hi. destruct Hi as [->|Hi]; [lia|].
      inversion Hs as [|? ? _ Hf]; subst. rewrite Forall_forall in Hf. specialize (Hf p Hi). lia.
Qed.
Lemma count_nodup (s : list string) : (forall x, count String.eqb x s <= 1)%nat -> NoDup s.
Proof.
  induction s as [|y s IH]; intros H; constructor.
  - intros Hy. apply count_in in Hy. specialize (H y). unfold count in *. cbn [filter] in H. rewrite String.eqb_refl in H. cbn [length] in H. lia.
  - apply IH. intros x. specialize (H x). unfold count in *. cbn [filter] in H. destruct (String.eqb x y); cbn [length] in H; lia.
Qed.
Lemma without_once s D : (forall x, count String.eqb x s <= 2)%nat -> (forall x, In x D <-> count String.eqb x s = 2%nat) -> NoDup (without s D).
Proof.
  intros Hc HD. apply count_nodup. intros x. destruct (in_dec string_dec x D) as [Hx|Hx]; [rewrite count_gone by exact Hx; lia|].
  rewrite count_without by exact Hx. specialize (Hc x). destruct (Nat.eq_dec (count String.eqb x s) 2) as [E|E]; [apply HD in E; contradiction|lia].
Qed.
Lemma repeated_spec s x : In x (repeated s) <-> count String.eqb x s = 2%nat.
Proof.
  unfold repeated. rewrite filter_In, nodup_In, Nat.eqb_eq. split; [tauto|]. intros E. split; [|exact E]. apply count_in. lia.
Qed.
Lemma repeated_nodup s : NoDup (repeated s).
Proof. apply filter_nodup, NoDup_nodup. Qed.
Lemma without_same s D D' : (forall x, In x D <-> In x D') -> without s D = without s D'.
Proof.
  intros H. unfold without. apply filter_ext. intros x. f_equal. apply eq_true_iff_eq. rewrite !existsb_exists.
  split; intros (y & Hy & E); exists y; (split; [apply H, Hy|exact E]).
Qed.
Lemma indices_without_same s i D D' : (forall x, In x D <-> In x D') -> indices_without s i D = indices_without s i D'.
Proof.
  intros H. unfold indices_without. f_equal. apply filter_ext. intros x. f_equal. apply eq_true_iff_eq. rewrite !existsb_exists.
  split; intros (y & Hy & E); exists y; (split; [apply H, Hy|exact E]).
Qed.
Lemma slot_entry s (i : list Z) D : (forall x, count String.eqb x s <= 2)%nat -> length i = length s -> (forall x, In x D <-> count String.eqb x s = 2%nat) ->
  indices_without s i D = map (fun y => nth (slot s (false, y)) i 0%Z) (without s D).
Proof.
  intros Hc Hl HD. transitivity (map (fun q => nth q i 0%Z) (filter (fun q => negb (existsb (String.eqb (nth q s ""%string)) D)) (seq 0 (length s)))).
  - assert (Ec : combine s i = map (fun q => (nth q s ""%string, nth q i 0%Z)) (seq 0 (length s))).
    { clear - Hl. revert i Hl. induction s as [|y s IH]; intros [|z i] Hl; cbn [length] in Hl; try discriminate; [reflexivity|]. cbn [combine length seq map nth]. f_equal.
      rewrite <- seq_shift, map_map. rewrite (IH i) by lia. reflexivity. }
    unfold indices_without. rewrite Ec. generalize (seq 0 (length s)). clear. intros l. induction l as [|q l IH]; [reflexivity|]. cbn [map filter fst].
    destruct (negb _); cbn [map snd]; rewrite IH; reflexivity.
  - assert (Ew : without s D = map (fun q => nth q s ""%string) (filter (fun q => negb (existsb (String.eqb (nth q s ""%string)) D)) (seq 0 (length s)))).
    { unfold without. assert (Es : s = map (fun q => nth q s ""%string) (seq 0 (length s))) by (symmetry; apply map_nth_seq). rewrite Es at 1.
      generalize (seq 0 (length s)). clear. intros l. induction l as [|q l IH]; [reflexivity|]. cbn [map filter]. destruct (negb _); cbn [map]; rewrite IH; reflexivity. }
    rewrite Ew, map_map. apply map_ext_in. intros q Hq. apply filter_In in Hq as [Hq Hn]. apply in_seq in Hq. f_equal. symmetry.
    replace false with (seen s q); [apply slot_label; [exact Hc|lia]|]. destruct (seen s q) eqn:Es; [|reflexivity]. exfalso.
    assert (Hi : In (true, nth q s ""%string) (labels s)). { unfold labels. apply in_map_iff. exists q. split; [rewrite Es; reflexivity|apply in_seq; lia]. }
    apply in_labels in Hi; [|exact Hc]. apply HD in Hi. apply negb_true_iff in Hn. assert (Hx : existsb (String.eqb (nth q s ""%string)) D = true) by (apply existsb_exists; exists (nth q s ""%string); split; [exact Hi|apply String.eqb_refl]). congruence.
Qed.

Section Values.
Context {A : AlgOps} {L : AlgLaws A}.
Add Ring Kring : kring (setoid keq_equiv kring_ext).
Variables (n : nat) (g gi : nat -> nat -> K).
Notation mat := (nat -> nat -> K).
Notation pure1 := (pure (X := string)).
Notation pure2 := (pure (X := lab)).
Notation alongs1 := (alongs n String.eqb).
Notation alongs2 := (alongs n leqb).
Notation con2 := (con n leqb).
Notation cv := (conv g gi (-1)%Z).
Notation lifts := (lifted n).

Lemma trace_general s D (Mof : lab -> mat) (Nof Pof : string -> mat) (T : list nat -> K) f : (forall x, count String.eqb x s <= 2)%nat ->
  NoDup D -> (forall x, In x D <-> count String.eqb x s = 2%nat) -> ok n f ->
  (forall y p q, In y D -> (p < n)%nat -> (q < n)%nat -> nsum n (fun k => nsum n (fun l => Nof y k l * (Mof (false, y) k p * Mof (true, y) l q))) == Pof y p q) ->
  con2 (twins Nof D) (fun h => act n (map Mof (labels s)) T (map h (labels s))) (join f f) ==
  alongs1 (map (fun y => (y, Mof (false, y))) (without s D)) (fun f => con2 (twins Pof D) (fun h => T (map h (labels s))) (join f f)) f.
Proof.
  intros Hc Nd HD Of HN. assert (Nl := labels_nodup s Hc). set (rest := map (Datatypes.pair false) (without s D)).
  set (F := fun h : lab -> nat => T (map h (labels s))).
  assert (DF : dep (fun a => In a (labels s)) F). { intros h h' E. unfold F. rewrite (map_ext_in h h'); [reflexivity|exact E]. }
  assert (Nw := without_once s D Hc HD).
  assert (Ir : forall b y, In (b, y) rest <-> b = false /\ In y s /\ ~ In y D).
  { intros b y. unfold rest. rewrite in_map_iff. split.
    - intros (z & E & H). injection E as <- <-. split; [reflexivity|apply without_in, H].
    - intros (-> & H). exists y. split; [reflexivity|apply without_in, H]. }
  assert (Ib : forall b y, In (b, y) (both D) <-> In y D).
  { intros b y. unfold both. rewrite in_flat_map. split.
    - intros (z & Hz & [E|[E|[]]]); injection E as _ <-; exact Hz.
    - intros H. exists y. split; [exact H|]. destruct b; [right; left|left]; reflexivity. }
  assert (Nb : NoDup (both D)).
  { clear - Nd. unfold both. induction Nd as [|y l Hy _ IH]; [constructor|]. cbn [flat_map app].
    assert (H : forall b, ~ In (b, y) (flat_map (fun y0 => [(false, y0); (true, y0)]) l)).
    { intros b H. apply in_flat_map in H as (z & Hz & [E|[E|[]]]); injection E as _ <-; contradiction. }
    constructor; [intros [E|Hi]; [discriminate E|exact (H _ Hi)]|]. constructor; [apply H|exact IH]. }
  assert (Nr : NoDup rest). { unfold rest. apply FinFun.Injective_map_NoDup; [intros x y E; congruence|exact Nw]. }
  assert (Hp : Permutation (labels s) (both D ++ rest)).
  { apply NoDup_Permutation; [exact Nl| |].
    - apply nodup_app; [exact Nb|exact Nr|]. intros [b y] H H'. apply Ib in H. apply Ir in H'. tauto.
    - intros [b y]. rewrite in_app_iff, in_labels by exact Hc. rewrite Ib, Ir. destruct b.
      + rewrite HD. split; [auto|intros [H|(H & _)]; [exact H|discriminate H]].
      + split; [intros H; destruct (in_dec string_dec y D); auto|intros [H|H]; [|tauto]]. apply HD in H. apply count_in. lia. }
  transitivity (con2 (twins Nof D) (alongs2 (moves Mof (labels s)) F) (join f f)).
  { apply (con_ext n leqb leqb_spec); [apply ok_join; exact Of|]. intros h Oh _. rewrite (act_alongs n leqb leqb_spec); [|exact Nl|apply map_length|exact Oh].
    replace (combine (labels s) (map Mof (labels s))) with (moves Mof (labels s)); [reflexivity|]. unfold moves. clear. induction (labels s) as [|a l IH]; [reflexivity|]. cbn [map combine]. rewrite IH. reflexivity. }
  rewrite (con_general n Mof Nof Pof (labels s) rest D F f); try assumption.
  - unfold rest. rewrite map_map. cbn [snd]. reflexivity.
  - intros [b y] H H'. cbn [fst snd] in H'. apply Ir in H as (-> & H & Hn). apply in_labels in H'; [|exact Hc]. cbn [negb] in H'. apply HD in H'. contradiction.
Qed.
Lemma both_nodup D : NoDup D -> NoDup (both D).
Proof.
  intros Nd. unfold both. induction Nd as [|y l Hy _ IH]; [constructor|]. cbn [flat_map app].
  assert (H : forall b, ~ In (b, y) (flat_map (fun y0 => [(false, y0); (true, y0)]) l)).
  { intros b H. apply in_flat_map in H as (z & Hz & [E|[E|[]]]); injection E as _ <-; contradiction. }
  constructor; [intros [E|Hi]; [discriminate E|exact (H _ Hi)]|]. constructor; [apply H|exact IH].
Qed.
Lemma twins_perm (Nof : string -> mat) D D' F f : NoDup D -> Permutation D D' -> pure2 F -> ok n f -> con2 (twins Nof D) F (join f f) == con2 (twins Nof D') F (join f f).
Proof.
  intros Nd Hp P Of. apply (con_perm n leqb leqb_spec); [apply ok_join; exact Of|exact P|rewrite ends_twins; apply both_nodup, Nd|]. apply Permutation_map, Hp.
Qed.

Hypothesis Hsy : symmetric_fun n g.
Hypothesis Hin : inverse_fun n g gi.

(** The components of T in the configuration [i], traced with the metric in the configurations
    opposite to those of the positions *)
Lemma trace_value s i D G (T : list nat -> K) f : (forall x, count String.eqb x s <= 2)%nat -> length i = length s -> valid_cfg i ->
  NoDup D -> (forall x, In x D <-> count String.eqb x s = 2%nat) -> ok n f ->
  (forall z0 z1 k l, valid_cfg [z0; z1] -> (k < n)%nat -> (l < n)%nat -> aget (G (- z0)%Z (- z1)%Z) [k; l] == gmat g gi z0 z1 k l) ->
  lsum (tuples n (length D)) (fun ks => lsum (tuples n (length D)) (fun ls =>
    trace_factor s i G D ks ls * act n (map cv i) T (trace_index s D ks ls f))) ==
  lifts (without s D) (map cv (indices_without s i D))
    (fun f => contracted n gi (repeated s) (fun f1 f2 => T (map (fun q => let x := nth q s ""%string in (if existsb (String.eqb x) (firstn q s) then f2 else f1) x) (seq 0 (length s)))) f f) f.
Proof.
  intros Hc Hl Vi Nd HD Of HG. set (Mof := fun a : lab => cv (nth (slot s a) i 0%Z)).
  set (Nof := fun y => let z q := nth (nth q (occurrences s y) 0%nat) i 0%Z in fun k l => aget (G (- z 0%nat)%Z (- z 1%nat)%Z) [k; l]).
  assert (EM : map cv i = map Mof (labels s)).
  { transitivity (map (fun q => cv (nth q i 0%Z)) (map (slot s) (labels s))); [|rewrite map_map; reflexivity]. rewrite slots by exact Hc. rewrite <- Hl.
    rewrite <- (map_nth_seq i 0%Z) at 1. rewrite map_map. reflexivity. }
  assert (EI : forall f1 f2, map (fun q => let x := nth q s ""%string in (if existsb (String.eqb x) (firstn q s) then f2 else f1) x) (seq 0 (length s)) = map (join f1 f2) (labels s)).
  { intros f1 f2. unfold labels. rewrite map_map. apply map_ext. intros q. cbv zeta. unfold join, seen. cbn [fst snd]. destruct (existsb _ _); reflexivity. }
  assert (ET : forall ks ls, trace_index s D ks ls f = map (join (assign D ks f) (assign D ls f)) (labels s)).
  { intros ks ls. rewrite <- EI. unfold trace_index. apply map_ext. intros q. cbv zeta. destruct (existsb _ _); reflexivity. }
  assert (EW : forall D ks ls, trace_factor s i G D ks ls = weights Nof D ks ls).
  { clear. intros D. induction D as [|y D IH]; intros [|k ks] [|l ls]; cbn [trace_factor weights]; try reflexivity. rewrite IH. reflexivity. }
  assert (Hpart : forall h : lab -> nat, map (join (part false h) (part true h)) (labels s) = map h (labels s)).
  { intros h. apply map_ext. intros [b x]. unfold join, part. cbn. destruct b; reflexivity. }
  transitivity (con2 (twins Nof D) (fun h => act n (map Mof (labels s)) T (map h (labels s))) (join f f)).
  { rewrite EM.
    transitivity (lsum (tuples n (length D)) (fun ks => lsum (tuples n (length D)) (fun ls => weights Nof D ks ls * act n (map Mof (labels s)) T (map (join (assign D ks f) (assign D ls f)) (labels s))))).
    { apply lsum_ext. intros ks _. apply lsum_ext. intros ls _. rewrite ET, EW. reflexivity. }
    rewrite (double_con n Nof D (fun f1 f2 => act n (map Mof (labels s)) T (map (join f1 f2) (labels s))) f f Nd).
    - apply (con_ext n leqb leqb_spec); [apply ok_join; exact Of|]. intros h _ _. rewrite Hpart. reflexivity.
    - intros h h' E. rewrite !Hpart. rewrite (map_ext h h'); [reflexivity|]. intros a. apply E, I. }
  assert (PT : pure2 (fun h => T (map h (labels s)))). { intros h h' E. rewrite (map_ext h h'); [reflexivity|]. intros a. apply E, I. }
  rewrite (trace_general s D Mof Nof (fun _ => gi) T f Hc Nd HD Of).
  - rewrite lifted_alongs.
    + rewrite (slot_entry s i D Hc Hl HD). rewrite map_map.
      replace (combine (without s D) (map (fun y => cv (nth (slot s (false, y)) i 0%Z)) (without s D))) with (map (fun y => (y, Mof (false, y))) (without s D)).
      2:{ unfold Mof. clear. induction (without s D) as [|y l IH]; [reflexivity|]. cbn [map combine]. rewrite IH. reflexivity. }
      apply (alongs_eqn n String.eqb String.eqb_spec); [exact Of|]. intros h Oh. rewrite contracted_con.
      * rewrite (twins_perm (fun _ => gi) D (repeated s)); [|exact Nd| |exact PT|exact Oh].
        -- apply (con_ext n leqb leqb_spec); [apply ok_join; exact Oh|]. intros h' _ _. rewrite EI, Hpart. reflexivity.
        -- apply NoDup_Permutation; [exact Nd|apply repeated_nodup|]. intros x. rewrite HD, repeated_spec. reflexivity.
      * intros h1 h2 E. rewrite !EI, !Hpart. apply PT. exact E.
    + apply without_once; assumption.
    + rewrite map_length. apply indices_without_length. congruence.
    + intros h1 h2 E. rewrite !contracted_con.
      * apply (con_pure n leqb leqb_spec); [|intros [b x] _; unfold join; cbn; destruct b; apply E, I]. intros k1 k2 Ek. rewrite !EI, !Hpart. apply PT. exact Ek.
      * intros k1 k2 Ek. rewrite !EI, !Hpart. apply PT. exact Ek.
      * intros k1 k2 Ek. rewrite !EI, !Hpart. apply PT. exact Ek.
    + exact Of.
  - intros y p q Hy Hp Hq. apply HD in Hy. destruct (occ_two s y Hy) as (p0 & p1 & Eo & Hpp & Hp1).
    assert (Hv : forall r, (r < length s)%nat -> nth r i 0%Z = 1%Z \/ nth r i 0%Z = (-1)%Z).
    { intros r Hr. unfold valid_cfg in Vi. rewrite Forall_forall in Vi. apply Vi, nth_In. congruence. }
    unfold Mof, Nof, slot. cbn [fst snd]. rewrite Eo. cbn [nth]. apply pair_metric; try assumption; [apply Hv; lia|apply Hv; lia|].
    intros k l Hk Hll. apply HG; [|exact Hk|exact Hll]. constructor; [apply Hv; lia|]. constructor; [apply Hv; lia|constructor].
Qed.

(** *** Formulas *)
Context {DL : DiffLaws A}.
Variables (conf : oid -> list Z) (xs : list string) (T : oid -> list nat -> K).
Notation val := (value conf n xs g gi T).
Notation cfg := (free_cfg conf).

Lemma free_nodup p : well_formed conf p -> NoDup (free_syms p).
Proof.
  induction p as [t s|x IHx y IHy|x IHx y IHy|x IHx|k x IHx|k x IHx|x IHx y IHy|a x IHx]; cbn [well_formed free_syms]; try tauto.
  - intros [_ Hc]. apply without_once; [exact Hc|apply repeated_spec].
  - intros [Hx Hy]. apply nodup_app; [apply without_nodup, IHx, Hx|apply without_nodup, IHy, Hy|]. intros z H H'. apply without_in in H. apply without_in in H'. tauto.
  - intros [Hx Ha]. constructor; auto.
Qed.
Lemma free_length p : well_formed conf p -> length (cfg p) = length (free_syms p).
Proof.
  induction p as [t s|x IHx y IHy|x IHx y IHy|x IHx|k x IHx|k x IHx|x IHx y IHy|a x IHx]; cbn [well_formed free_syms free_cfg]; try tauto.
  - intros [Hl _]. apply indices_without_length. congruence.
  - intros [Hx Hy]. rewrite !app_length, !indices_without_length by auto. reflexivity.
  - intros [Hx Ha]. cbn [length]. rewrite IHx by exact Hx. reflexivity.
Qed.
Lemma indices_without_sub s i s' z : In z (indices_without s i s') -> In z i.
Proof. unfold indices_without. intros H. apply in_map_iff in H as ([x z'] & E & H). cbn in E. subst z'. apply filter_In in H as [H _]. apply in_combine_r in H. exact H. Qed.
Lemma free_valid p : (forall t, In t (leaves p) -> valid_cfg (conf t)) -> valid_cfg (cfg p).
Proof.
  assert (Hw : forall s i s', valid_cfg i -> valid_cfg (indices_without s i s')).
  { intros s i s' V. unfold valid_cfg in *. rewrite Forall_forall in *. intros z Hz. apply V. eapply indices_without_sub, Hz. }
  induction p as [t s|x IHx y IHy|x IHx y IHy|x IHx|k x IHx|k x IHx|x IHx y IHy|a x IHx]; cbn [leaves free_cfg]; intros H.
  - apply Hw, H. left; reflexivity.
  - apply IHx. intros t Ht. apply H, in_or_app. auto.
  - apply IHx. intros t Ht. apply H, in_or_app. auto.
  - auto.
  - auto.
  - auto.
  - unfold valid_cfg. apply Forall_app. split; apply Hw; [apply IHx|apply IHy]; intros t Ht; apply H, in_or_app; auto.
  - constructor; [auto|]. apply IHx, H.
Qed.
Lemma contracted_dep M D F S : dep (fun a => S a \/ In a (both D)) (fun h : lab -> nat => F (part false h) (part true h)) ->
  dep (fun x => S (false, x) \/ S (true, x)) (fun f => contracted n M D F f f).
Proof.
  intros H f f' E. assert (P := dep_pure _ _ H). rewrite !contracted_con by exact P. apply (con_dep n leqb leqb_spec S).
  - rewrite ends_twins. exact H.
  - intros [b x] Ha. unfold join. cbn [fst snd]. destruct b; apply E; auto.
Qed.
Lemma both_spec D b x : In (b, x) (both D) <-> In x D.
Proof.
  unfold both. rewrite in_flat_map. split.
  - intros (z & Hz & [E|[E|[]]]); injection E as _ <-; exact Hz.
  - intros H. exists x. split; [exact H|]. destruct b; [right; left|left]; reflexivity.
Qed.
Lemma value_dep p : well_formed conf p -> dep (fun x => In x (free_syms p)) (val p).
Proof.
  induction p as [t s|x IHx y IHy|x IHx y IHy|x IHx|k x IHx|k x IHx|x IHx y IHy|a x IHx]; cbn [well_formed free_syms value].
  - intros [Hl Hc]. eapply dep_weaken; [|apply (contracted_dep gi (repeated s) _ (fun a => fst a = false /\ In (snd a) (without s (repeated s))))].
    + intros z [[_ H]|[H _]]; [exact H|discriminate H].
    + intros h h' E. rewrite (map_ext_in _ (fun q => let x := nth q s ""%string in (if existsb (String.eqb x) (firstn q s) then part true h' else part false h') x)); [reflexivity|].
      intros q Hq. apply in_seq in Hq. cbv zeta. fold (seen s q). destruct (seen s q) eqn:Es; unfold part; apply E.
      * right. apply both_spec, repeated_spec. apply (in_labels s true _ Hc). unfold labels. apply in_map_iff. exists q. split; [rewrite Es; reflexivity|apply in_seq; lia].
      * destruct (in_dec string_dec (nth q s ""%string) (repeated s)) as [Hr|Hr]; [right; apply both_spec, Hr|left]. cbn [fst snd]. split; [reflexivity|].
        apply without_in. split; [apply nth_In; lia|exact Hr].
  - intros (Hx & Hy & Hp) f f' E. rewrite (IHx Hx f f' E), (IHy Hy f f'); [reflexivity|]. intros z Hz. apply E. apply (Permutation_in z (Permutation_sym Hp)), Hz.
  - intros (Hx & Hy & Hp) f f' E. rewrite (IHx Hx f f' E), (IHy Hy f f'); [reflexivity|]. intros z Hz. apply E. apply (Permutation_in z (Permutation_sym Hp)), Hz.
  - intros Hx f f' E. rewrite (IHx Hx f f' E). reflexivity.
  - intros Hx f f' E. rewrite (IHx Hx f f' E). reflexivity.
  - intros Hx f f' E. rewrite (IHx Hx f f' E). reflexivity.
  - intros [Hx Hy]. set (sx := free_syms x) in *. set (sy := free_syms y) in *.
    eapply dep_weaken; [|apply (contracted_dep gi (common sx sy) (fun f1 f2 => val x f1 * val y f2) (fun a => if fst a then In (snd a) (without sy sx) else In (snd a) (without sx sy)))].
    + intros z [H|H]; cbn [fst snd] in H; apply in_or_app; auto.
    + intros h h' E. rewrite (IHx Hx (part false h) (part false h')), (IHy Hy (part true h) (part true h')); [reflexivity| |]; intros z Hz; apply E; rewrite both_spec; cbn [fst snd].
      * destruct (in_dec string_dec z sx) as [Hi|Hi]; [right; apply common_in; auto|left; apply without_in; auto].
      * destruct (in_dec string_dec z sy) as [Hi|Hi]; [right; apply common_in; auto|left; apply without_in; auto].
  - intros [Hx Ha] f f' E. unfold lifted at 1 3. rewrite (map_ext_in f f' (free_syms x)) by (intros z Hz; apply E; right; exact Hz). unfold act. apply lsum_ext. intros ks _.
    apply kmul_proper; [reflexivity|].
    assert (Ea : assign (free_syms x) ks f a = assign (free_syms x) ks f' a).
    { unfold assign. destruct (index_of String.eqb a (free_syms x)); [reflexivity|]. apply E. left; reflexivity. }
    rewrite Ea. apply kdiff_proper. unfold lifted, act.
    assert (Ei : forall l h h' z, In z (free_syms x) -> assign (free_syms x) l h z = assign (free_syms x) l h' z).
    { intros l h h' z Hz. unfold assign. destruct (index_of String.eqb z (free_syms x)) eqn:Ez; [reflexivity|]. apply spos_none in Ez. contradiction. }
    rewrite (map_ext_in (assign (free_syms x) ks f) (assign (free_syms x) ks f') (free_syms x)) by (intros z Hz; apply Ei, Hz).
    apply lsum_ext. intros ls _. apply kmul_proper; [reflexivity|]. apply (IHx Hx). intros z Hz. apply Ei, Hz.
Qed.
End Values.
