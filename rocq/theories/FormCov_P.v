(** Formulas under a change of coordinates. *)
From Coq Require Import Permutation Bool.
From Verif Require Import Alg Alg_P Arr Arr_P Spec UtilsM Utils_P Arr2_P Act_P RL_P Tensor_P TensorM WorldM SpecWorld CalcM SpecCalc Calc_P Calc2_P Trace_P CurvM SpecCurv SpecChange SpecForm Curv_P CurvCov_P Along_P Label_P FormVal_P FormVal2_P FormRun2_P.
Local Open Scope K_scope.

Section Cov.
Context {A : AlgOps} {L : AlgLaws A} {DL : DiffLaws A}.
Add Ring Kring : kring (setoid keq_equiv kring_ext).
Variables (n : nat) (s : K -> K) (M : nat -> nat -> K) (conf : oid -> list Z).
Variables (xs ys : list string) (g gi g' gi' : nat -> nat -> K) (T T' : oid -> list nat -> K).
Hypothesis Hs : hom s.
(** The inverse metric. *)
Hypothesis Hgi : forall p q, (p < n)%nat -> (q < n)%nat ->
  nsum n (fun k => nsum n (fun l => gi' k l * (M k p * M l q))) == s (gi p q).
(** The chain rule. *)
Hypothesis Hchain : forall e k, (k < n)%nat -> (forall l, (l < n)%nat -> kdiff (cx ys l) e == k0) ->
  kdiff (cx ys k) (s e) == nsum n (fun p => s (kdiff (cx xs p) e) * M k p).
Hypothesis Hdgi : forall l p q, (l < n)%nat -> (p < n)%nat -> (q < n)%nat -> kdiff (cx ys l) (gi p q) == k0.
Notation val := (value conf n xs g gi T).
Notation val' := (value conf n ys g' gi' T').
Notation alongs1 := (alongs n String.eqb).
Notation con2 := (con n leqb).
Notation moved_along q := (map (fun y : string => (y, M)) q).

Lemma trace_labels f1 f2 q : map (fun p => let x := nth p q ""%string in (if existsb (String.eqb x) (firstn p q) then f2 else f1) x) (seq 0 (length q)) = map (join f1 f2) (labels q).
Proof. unfold labels. rewrite map_map. apply map_ext. intros p. cbv zeta. unfold join, seen. cbn [fst snd]. destruct (existsb _ _); reflexivity. Qed.
Lemma join_part (h : lab -> nat) q : map (join (part false h) (part true h)) (labels q) = map h (labels q).
Proof. apply map_ext. intros [b x]. unfold join, part. cbn. destruct b; reflexivity. Qed.
Lemma trace_con (N : nat -> nat -> K) (F : list nat -> K) q f : ok n f ->
  contracted n N (repeated q) (fun f1 f2 => F (map (fun p => let x := nth p q ""%string in (if existsb (String.eqb x) (firstn p q) then f2 else f1) x) (seq 0 (length q)))) f f ==
  con2 (twins (fun _ => N) (repeated q)) (fun h => F (map h (labels q))) (join f f).
Proof.
  intros Of. rewrite contracted_con.
  - apply (con_ext n leqb leqb_spec); [apply ok_join; exact Of|]. intros h _ _. rewrite trace_labels, join_part. reflexivity.
  - intros h h' E. rewrite !trace_labels, !join_part. rewrite (map_ext h h'); [reflexivity|]. intros a. apply E, I.
Qed.
Lemma contracted_hom N C F f1 f2 : s (contracted n N C F f1 f2) == contracted n (hmat s N) C (fun f1 f2 => s (F f1 f2)) f1 f2.
Proof.
  revert f1 f2. induction C as [|y C IH]; intros f1 f2; cbn [contracted]; [reflexivity|]. rewrite (hom_nsum s) by exact Hs. apply nsum_ext. intros k _.
  rewrite (hom_nsum s) by exact Hs. apply nsum_ext. intros l _. rewrite (hom_mul _ Hs), IH. reflexivity.
Qed.
Lemma contracted_ext N C F F' f1 f2 : (forall f1 f2, F f1 f2 == F' f1 f2) -> contracted n N C F f1 f2 == contracted n N C F' f1 f2.
Proof.
  intros H. revert f1 f2. induction C as [|y C IH]; intros f1 f2; cbn [contracted]; [apply H|]. apply nsum_ext. intros k _. apply nsum_ext. intros l _. rewrite IH. reflexivity.
Qed.
Lemma contracted_free y N C F f1 f2 : (forall p q, (p < n)%nat -> (q < n)%nat -> kdiff y (N p q) == k0) ->
  (forall f1 f2, ok n f1 -> ok n f2 -> kdiff y (F f1 f2) == k0) -> ok n f1 -> ok n f2 -> kdiff y (contracted n N C F f1 f2) == k0.
Proof.
  intros HN HF. revert f1 f2. induction C as [|z C IH]; intros f1 f2 O1 O2; cbn [contracted]; [apply HF; assumption|].
  rewrite kdiff_nsum. apply nsum_zero'. intros k Hk. rewrite kdiff_nsum. apply nsum_zero'. intros l Hl. rewrite kdiff_mul, (HN k l Hk Hl), IH; [ring| |].
  - apply (ok_up n String.eqb); assumption.
  - apply (ok_up n String.eqb); assumption.
Qed.

(** The derivative of a scalar *)
Lemma lifted_nil (F : (string -> nat) -> K) f : pure F -> ok n f -> lifted n [] [] F f == F f.
Proof. intros P Of. rewrite lifted_alongs by (auto using NoDup_nil). reflexivity. Qed.
Lemma gradient_value zs h hi U a x f : well_formed conf (FGrad a x) -> free_syms x = [] -> ok n f ->
  value conf n zs h hi U (FGrad a x) f == kdiff (cx zs (f a)) (value conf n zs h hi U x f).
Proof.
  intros [W _] E Of. cbn [value]. rewrite E. assert (Lx := free_length n conf U x W). rewrite E in Lx. destruct (free_cfg conf x); [|discriminate Lx]. cbn [map].
  assert (P : pure (value conf n zs h hi U x)) by (eapply dep_pure, (value_dep n h hi conf zs U x W)).
  rewrite lifted_nil; [|intros f1 f2 H|exact Of].
  - apply kdiff_proper. apply lifted_nil; [exact P|exact Of].
  - rewrite (H a I). apply kdiff_proper. apply lifted_pure; auto using NoDup_nil.
Qed.

Notation foreign p := (forall l, (l < n)%nat -> (forall t idx, In t (leaves p) -> in_range n (length (conf t)) idx -> kdiff (cx ys l) (T t idx) == k0) /\
  forall k, In k (factors p) -> kdiff (cx ys l) k == k0).
Lemma value_free p : well_formed conf p -> tensorial p -> foreign p -> forall l f, (l < n)%nat -> ok n f -> kdiff (cx ys l) (val p f) == k0.
Proof.
  induction p as [t q|x IHx y IHy|x IHx y IHy|x IHx|k x IHx|k x IHx|x IHx y IHy|a x IHx]; intros W Tn Fr l f Hl Of.
  - destruct W as [Lq Hc]. cbn [value]. apply contracted_free; [intros; apply Hdgi; assumption| |exact Of|exact Of]. intros f1 f2 O1 O2.
    apply (proj1 (Fr l Hl)); [left; reflexivity|]. split; [rewrite map_length, seq_length; exact Lq|]. apply Forall_forall. intros z Hz. apply in_map_iff in Hz as (u & <- & _). cbv zeta.
    destruct (existsb _ _); auto.
  - destruct W as (Wx & Wy & _), Tn as [Tx Ty]. cbn [value leaves factors] in *. rewrite kdiff_add, (IHx Wx Tx), (IHy Wy Ty); auto; [ring| |];
      intros l' Hl'; destruct (Fr l' Hl') as [F1 F2]; (split; [intros t idx Ht|intros k Hk]); [apply F1|apply F2|apply F1|apply F2]; apply in_or_app; auto.
  - destruct W as (Wx & Wy & _), Tn as [Tx Ty]. cbn [value leaves factors] in *. rewrite kdiff_sub, (IHx Wx Tx), (IHy Wy Ty); auto; [ring| |];
      intros l' Hl'; destruct (Fr l' Hl') as [F1 F2]; (split; [intros t idx Ht|intros k Hk]); [apply F1|apply F2|apply F1|apply F2]; apply in_or_app; auto.
  - cbn [value leaves factors] in *. rewrite kdiff_opp, (IHx W Tn Fr l f Hl Of). ring.
  - cbn [value leaves factors] in *. rewrite kdiff_mul, (proj2 (Fr l Hl) k (or_introl eq_refl)), (IHx W Tn); auto; [ring|].
    intros l' Hl'. destruct (Fr l' Hl') as [F1 F2]. split; [exact F1|]. intros k' Hk'. apply F2. right; exact Hk'.
  - cbn [value leaves factors] in *. rewrite kdiff_mul, (proj2 (Fr l Hl) k (or_introl eq_refl)), (IHx W Tn); auto; [ring|].
    intros l' Hl'. destruct (Fr l' Hl') as [F1 F2]. split; [exact F1|]. intros k' Hk'. apply F2. right; exact Hk'.
  - destruct W as (Wx & Wy), Tn as [Tx Ty]. cbn [value leaves factors] in *. apply contracted_free; [intros; apply Hdgi; assumption| |exact Of|exact Of]. intros f1 f2 O1 O2.
    rewrite kdiff_mul, (IHx Wx Tx), (IHy Wy Ty); auto; [ring| |];
      intros l' Hl'; destruct (Fr l' Hl') as [F1 F2]; (split; [intros t idx Ht|intros k Hk]); [apply F1|apply F2|apply F1|apply F2]; apply in_or_app; auto.
  - assert (W' := W). destruct W' as [Wx _]. destruct Tn as [Tx Ex]. rewrite (kdiff_proper _ _ _ (gradient_value xs g gi T a x f W Ex Of)). rewrite kdiff_comm.
    rewrite (kdiff_proper _ _ _ (IHx Wx Tx Fr l f Hl Of)). apply kdiff_0.
Qed.

Lemma alongs_move q q' F f : ok n f -> pure F -> NoDup q -> Permutation q q' -> alongs1 (moved_along q) F f == alongs1 (moved_along q') F f.
Proof.
  intros Of P Nd Hp. apply (alongs_perm n String.eqb String.eqb_spec); [exact Of|exact P|rewrite map_map, map_id; exact Nd|apply Permutation_map, Hp].
Qed.
Lemma s_pure (F : (string -> nat) -> K) (S : string -> Prop) : dep S F -> dep S (fun f => s (F f)).
Proof. intros P f h E. apply (hom_proper _ Hs), P, E. Qed.

Theorem value_moves p : well_formed conf p -> tensorial p -> (algebraic p \/ foreign p) ->
  (forall k, In k (factors p) -> s k == k) ->
  (forall t idx, In t (leaves p) -> in_range n (length (conf t)) idx -> T' t idx == act n (repeat M (length (conf t))) (fun ks => s (T t ks)) idx) ->
  forall f, ok n f -> val' p f == alongs1 (moved_along (free_syms p)) (fun f => s (val p f)) f.
Proof.
  induction p as [t q|x IHx y IHy|x IHx y IHy|x IHx|k x IHx|k x IHx|x IHx y IHy|a x IHx]; intros W Tn Fr Hk HT f Of.
  - assert (W' := W). destruct W' as [Lq Hc]. cbn [value free_syms].
    transitivity (con2 (twins (fun _ => gi') (repeated q)) (fun h => T' t (map h (labels q))) (join f f)); [apply trace_con, Of|].
    transitivity (con2 (twins (fun _ => gi') (repeated q)) (fun h => act n (map (fun _ : lab => M) (labels q)) (fun ks => s (T t ks)) (map h (labels q))) (join f f)).
    { apply (con_ext n leqb leqb_spec); [apply ok_join; exact Of|]. intros h Oh _.
      assert (Ll : length (labels q) = length (conf t)) by (rewrite labels_length; exact Lq).
      rewrite HT; [|left; reflexivity|].
      - replace (map (fun _ : lab => M) (labels q)) with (repeat M (length (conf t))); [reflexivity|]. rewrite <- Ll. clear. induction (labels q) as [|b l IH]; [reflexivity|]. cbn [length repeat map]. rewrite IH. reflexivity.
      - split; [rewrite map_length; exact Ll|]. apply Forall_forall. intros z Hz. apply in_map_iff in Hz as (u & <- & _). apply Oh. }
    rewrite (trace_general n g gi q (repeated q) (fun _ => M) (fun _ => gi') (fun _ => hmat s gi) (fun ks => s (T t ks)) f Hc (repeated_nodup q) (repeated_spec q) Of).
    2:{ intros y p0 q0 _ Hp Hq. apply Hgi; assumption. }
    apply (alongs_eqn n String.eqb String.eqb_spec); [exact Of|]. intros h Oh. rewrite (hom_proper _ Hs _ _ (trace_con gi (T t) q h Oh)). rewrite (con_hom n leqb s) by exact Hs.
    unfold twins. rewrite map_map. reflexivity.
  - assert (W' := W). destruct W' as (Wx & Wy & Hp), Tn as [Tx Ty]. cbn [value leaves factors free_syms] in *.
    assert (Fx : algebraic x \/ foreign x) by (destruct Fr as [[Ax Ay]|Fr]; [left; exact Ax|right; intros l Hl; destruct (Fr l Hl) as [F1 F2]; split; [intros t idx Ht; apply F1|intros k Hkk; apply F2]; apply in_or_app; auto]).
    assert (Fy : algebraic y \/ foreign y) by (destruct Fr as [[Ax Ay]|Fr]; [left; exact Ay|right; intros l Hl; destruct (Fr l Hl) as [F1 F2]; split; [intros t idx Ht; apply F1|intros k Hkk; apply F2]; apply in_or_app; auto]).
    rewrite (IHx Wx Tx Fx), (IHy Wy Ty Fy); try exact Of; try (intros; first [apply Hk|apply HT]; try assumption; apply in_or_app; auto).
    rewrite (alongs_move (free_syms y) (free_syms x)); [|exact Of| | |].
    + rewrite <- (alongs_add n String.eqb). apply (alongs_eqn n String.eqb String.eqb_spec); [exact Of|]. intros h _. symmetry. apply (hom_add _ Hs).
    + eapply dep_pure, s_pure, (value_dep n g gi conf xs T y Wy).
    + apply (FormVal2_P.free_nodup n conf T y Wy).
    + apply Permutation_sym, Hp.
  - assert (W' := W). destruct W' as (Wx & Wy & Hp), Tn as [Tx Ty]. cbn [value leaves factors free_syms] in *.
    assert (Fx : algebraic x \/ foreign x) by (destruct Fr as [[Ax Ay]|Fr]; [left; exact Ax|right; intros l Hl; destruct (Fr l Hl) as [F1 F2]; split; [intros t idx Ht; apply F1|intros k Hkk; apply F2]; apply in_or_app; auto]).
    assert (Fy : algebraic y \/ foreign y) by (destruct Fr as [[Ax Ay]|Fr]; [left; exact Ay|right; intros l Hl; destruct (Fr l Hl) as [F1 F2]; split; [intros t idx Ht; apply F1|intros k Hkk; apply F2]; apply in_or_app; auto]).
    rewrite (IHx Wx Tx Fx), (IHy Wy Ty Fy); try exact Of; try (intros; first [apply Hk|apply HT]; try assumption; apply in_or_app; auto).
    rewrite (alongs_move (free_syms y) (free_syms x)); [|exact Of| | |].
    + rewrite <- (alongs_sub n String.eqb). apply (alongs_eqn n String.eqb String.eqb_spec); [exact Of|]. intros h _. symmetry. apply (hom_sub s Hs).
    + eapply dep_pure, s_pure, (value_dep n g gi conf xs T y Wy).
    + apply (FormVal2_P.free_nodup n conf T y Wy).
    + apply Permutation_sym, Hp.
  - cbn [value leaves factors free_syms] in *. rewrite (IHx W Tn Fr Hk HT f Of). rewrite <- (alongs_opp n String.eqb). apply (alongs_eqn n String.eqb String.eqb_spec); [exact Of|]. intros h _.
    symmetry. apply (hom_opp s Hs).
  - cbn [value leaves factors free_syms] in *.
    assert (Fx : algebraic x \/ foreign x) by (destruct Fr as [Ax|Fr]; [left; exact Ax|right; intros l Hl; destruct (Fr l Hl) as [F1 F2]; split; [exact F1|intros k' Hkk; apply F2; right; exact Hkk]]).
    rewrite (IHx W Tn Fx); try assumption; [|intros k' Hk'; apply Hk; right; exact Hk']. rewrite <- (alongs_scale n String.eqb). apply (alongs_eqn n String.eqb String.eqb_spec); [exact Of|]. intros h _.
    rewrite (hom_mul _ Hs), (Hk k (or_introl eq_refl)). reflexivity.
  - cbn [value leaves factors free_syms] in *.
    assert (Fx : algebraic x \/ foreign x) by (destruct Fr as [Ax|Fr]; [left; exact Ax|right; intros l Hl; destruct (Fr l Hl) as [F1 F2]; split; [exact F1|intros k' Hkk; apply F2; right; exact Hkk]]).
    rewrite (IHx W Tn Fx); try assumption; [|intros k' Hk'; apply Hk; right; exact Hk']. rewrite <- (alongs_scale n String.eqb). apply (alongs_eqn n String.eqb String.eqb_spec); [exact Of|]. intros h _.
    rewrite (hom_mul _ Hs), (Hk k (or_introl eq_refl)). reflexivity.
  - assert (W' := W). destruct W' as (Wx & Wy), Tn as [Tx Ty]. cbn [value leaves factors free_syms] in *.
    assert (Fx : algebraic x \/ foreign x) by (destruct Fr as [[Ax Ay]|Fr]; [left; exact Ax|right; intros l Hl; destruct (Fr l Hl) as [F1 F2]; split; [intros t idx Ht; apply F1|intros k Hkk; apply F2]; apply in_or_app; auto]).
    assert (Fy : algebraic y \/ foreign y) by (destruct Fr as [[Ax Ay]|Fr]; [left; exact Ay|right; intros l Hl; destruct (Fr l Hl) as [F1 F2]; split; [intros t idx Ht; apply F1|intros k Hkk; apply F2]; apply in_or_app; auto]).
    set (sx := free_syms x) in *. set (sy := free_syms y) in *.
    assert (Dx := value_dep n g gi conf xs T x Wx). assert (Dy := value_dep n g gi conf xs T y Wy).
    assert (Dx' := value_dep n g' gi' conf ys T' x Wx). assert (Dy' := value_dep n g' gi' conf ys T' y Wy). fold sx sy in Dx, Dy, Dx', Dy'.
    rewrite contracted_con.
    2:{ intros h h' E. rewrite (dep_pure _ _ Dx' (part false h) (part false h')), (dep_pure _ _ Dy' (part true h) (part true h')); [reflexivity| |]; intros z _; apply E, I. }
    transitivity (con2 (twins (fun _ => gi') (common sx sy)) (fun h => alongs1 (moved_along sx) (fun f => s (val x f)) (part false h) * alongs1 (moved_along sy) (fun f => s (val y f)) (part true h)) (join f f)).
    { apply (con_ext n leqb leqb_spec); [apply ok_join; exact Of|]. intros h Oh _.
      rewrite (IHx Wx Tx Fx), (IHy Wy Ty Fy); try reflexivity; try (intros z; apply Oh); intros; first [apply Hk|apply HT]; try assumption; apply in_or_app; auto. }
    etransitivity.
    { apply (product_general n sx sy (fun f => s (val x f)) (fun f => s (val y f)) (fun _ => M) gi' (hmat s gi) f).
      - apply (FormVal2_P.free_nodup n conf T x Wx).
      - apply (FormVal2_P.free_nodup n conf T y Wy).
      - apply s_pure, Dx.
      - apply s_pure, Dy.
      - exact Of.
      - intros z p q _ Hp Hq. apply Hgi; assumption. }
    rewrite <- map_app. apply (alongs_eqn n String.eqb String.eqb_spec); [exact Of|]. intros h _. rewrite contracted_hom. apply contracted_ext. intros f1 f2. symmetry. apply (hom_mul _ Hs).
  - assert (W' := W). destruct W' as [Wx Na]. destruct Tn as [Tx Ex]. destruct Fr as [[]|Fr]. cbn [leaves factors] in *.
    rewrite (gradient_value ys g' gi' T' a x f W Ex Of).
    assert (IH := IHx Wx Tx (or_intror Fr) Hk HT f Of). rewrite Ex in IH. cbn [map alongs] in IH. rewrite (kdiff_proper _ _ _ IH).
    rewrite (Hchain (val x f) (f a) (Of a)) by (intros l Hl; apply value_free; assumption).
    cbn [free_syms]. rewrite Ex. cbn [map alongs]. unfold along. apply nsum_ext. intros k Hkn.
    assert (Ok' : ok n (upd String.eqb f a k)) by (apply (ok_up n String.eqb); assumption).
    rewrite (hom_proper _ Hs _ _ (gradient_value xs g gi T a x (upd String.eqb f a k) W Ex Ok')).
    assert (Eu : upd String.eqb f a k a = k) by (unfold upd; rewrite String.eqb_refl; reflexivity). rewrite Eu.
    assert (Ev : val x (upd String.eqb f a k) == val x f). { apply (value_dep n g gi conf xs T x Wx). rewrite Ex. intros z []. }
    rewrite (hom_proper _ Hs _ _ (kdiff_proper _ _ _ Ev)). ring.
Qed.
End Cov.
