(** The components of a curve object after a replacement. *)
From Coq Require Import String Permutation.
From Verif Require Import Alg Alg_P Arr Arr_P Arr2_P UtilsM Utils_P Spec Act_P TensorM RL_P Jac_P Tensor_P Jacobian_P Chr_P Subs_P Geod4_P CurveM SpecCurve Curve_P Curve2_P.
Import List.
Local Open Scope K_scope.

Lemma flat_map_two {X Y} (f g : X -> list Y) l : Permutation (flat_map f l ++ flat_map g l) (flat_map (fun x => f x ++ g x) l).
Proof.
  induction l as [|x l IH]; [constructor|]. cbn [flat_map]. rewrite <- !app_assoc. apply Permutation_app_head.
  apply (perm_trans (l' := g x ++ flat_map f l ++ flat_map g l)); [rewrite !app_assoc; apply Permutation_app_tail, Permutation_app_comm|].
  apply Permutation_app_head. exact IH.
Qed.
Lemma map_flat_map' {X Y Z} (h : Y -> Z) (f : X -> list Y) l : map h (flat_map f l) = flat_map (fun x => map h (f x)) l.
Proof. induction l as [|x l IH]; [reflexivity|]. cbn. rewrite map_app, IH. reflexivity. Qed.

Section Replaced.
Context {A : AlgOps} {L : AlgLaws A} {DL : DiffLaws A} {SL : SubsLaws A} {YL : SymLaws A} {VL : SelfLaws A}.
Context {N : NumSubs A} {NL : NumSubsLaws A N}.
Add Ring Kring : kring (setoid keq_equiv kring_ext).
Variables (p : string) (xs : list string).
Notation ms := (movers p xs).
Notation ss := (curve_symbols p xs).
Hypothesis C : clear_names p xs.
Variable r : list (string * K).
Hypothesis G : good_replacement p xs r.

Definition mov (k : string) : bool := existsb (String.eqb k) ms.
Lemma mov_spec k : mov k = true <-> In k ms.
Proof.
  unfold mov. rewrite existsb_exists. split; [intros (x & H & E); apply String.eqb_eq in E; subst; exact H|intros H; exists k; split; [exact H|apply String.eqb_refl]].
Qed.

Lemma good_static k v : In (k, v) r -> static p xs v.
Proof. intros H. destruct G as (_ & G2 & _). apply (G2 k v H). Qed.
Lemma good_constant k v : In (k, v) r -> mov k = false ->
  ~ In k (p :: ss ++ function_names p xs) /\ rate p xs v == k0.
Proof.
  intros H M. destruct G as (_ & G2 & _). destruct (G2 k v H) as (S & [Hk|(Hk & Hp & Hx)]).
  - apply mov_spec in Hk. rewrite Hk in M. discriminate M.
  - split; [exact Hk|]. apply rate_constant; assumption.
Qed.
Lemma good_key k : In k (map fst r) -> exists v, In (k, v) r.
Proof. intros H. apply in_map_iff in H as ([k' v] & <- & H). exists v. exact H. Qed.

(** *** Keys *)
Lemma in_moving_false k v : In (k, v) r -> mov k = false -> existsb (String.eqb k) (moving_symbols p xs) = false.
Proof.
  intros H M. destruct (good_constant k v H M) as [NI _]. apply Bool.not_true_iff_false. intros Z. apply existsb_exists in Z as (x & Hx & E).
  apply String.eqb_eq in E. subst x. apply NI. right. apply in_or_app. left. apply (in_moving p xs C), Hx.
Qed.
Lemma fk_mov k : mov k = true -> key_function p xs k = KFun k 0.
Proof.
  intros M. unfold key_function. assert (E : existsb (String.eqb k) (moving_symbols p xs) = true).
  { apply existsb_exists. exists k. split; [|apply String.eqb_refl]. apply (in_moving p xs C), ss_x, mov_spec, M. }
  rewrite E. reflexivity.
Qed.
Lemma fk_const k v : In (k, v) r -> mov k = false -> key_function p xs k = KSym k.
Proof. intros H M. unfold key_function. rewrite (in_moving_false k v H M). reflexivity. Qed.

Lemma key_0 k v : In (k, v) r -> key_inverse p xs (key_function p xs k) = KSym k.
Proof.
  intros H. destruct (mov k) eqn:M; [rewrite (fk_mov k M)|rewrite (fk_const k v H M); reflexivity]. cbn [key_inverse]. unfold mov in M. rewrite M. reflexivity.
Qed.
Lemma key_1 k v : In (k, v) r -> key_inverse p xs (key_diff p (key_function p xs k)) = if mov k then KSym (dot k) else KNum false.
Proof.
  intros H. destruct (mov k) eqn:M; [rewrite (fk_mov k M)|rewrite (fk_const k v H M)].
  - cbn [key_inverse key_diff]. unfold mov in M. rewrite M. reflexivity.
  - destruct (good_constant k v H M) as [NI _]. cbn [key_diff]. assert (E : String.eqb k p = false).
    { apply String.eqb_neq. intros ->. apply NI. left. reflexivity. }
    rewrite E. reflexivity.
Qed.
Lemma key_2 k v : In (k, v) r -> key_inverse p xs (key_diff p (key_diff p (key_function p xs k))) = if mov k then KSym (ddot k) else KNum false.
Proof.
  intros H. destruct (mov k) eqn:M; [rewrite (fk_mov k M)|rewrite (fk_const k v H M)].
  - cbn [key_inverse key_diff]. unfold mov in M. rewrite M. reflexivity.
  - reflexivity.
Qed.

(** *** The list of substitutions *)
Definition entry0 (x : string * K) := (key_inverse p xs (key_function p xs (fst x)), value_inverse p xs (value_function p xs (snd x))).
Definition entry1 (x : string * K) := (key_inverse p xs (key_diff p (key_function p xs (fst x))), value_inverse p xs (value_diff p xs 0 (value_function p xs (snd x)))).
Definition entry2 (x : string * K) := (key_inverse p xs (key_diff p (key_diff p (key_function p xs (fst x)))), value_inverse p xs (value_diff p xs 1 (value_diff p xs 0 (value_function p xs (snd x))))).
Definition entries := map entry0 r ++ map entry1 r ++ map entry2 r.

Lemma entry0_at k v : In (k, v) r -> entry0 (k, v) = (KSym k, value_inverse p xs (value_function p xs v)).
Proof. intros H. unfold entry0. cbn [fst snd]. rewrite (key_0 k v H). reflexivity. Qed.
Lemma entry1_at k v : In (k, v) r -> entry1 (k, v) = (if mov k then KSym (dot k) else KNum false, value_inverse p xs (value_diff p xs 0 (value_function p xs v))).
Proof. intros H. unfold entry1. cbn [fst snd]. rewrite (key_1 k v H). reflexivity. Qed.
Lemma entry2_at k v : In (k, v) r -> entry2 (k, v) = (if mov k then KSym (ddot k) else KNum false, value_inverse p xs (value_diff p xs 1 (value_diff p xs 0 (value_function p xs v)))).
Proof. intros H. unfold entry2. cbn [fst snd]. rewrite (key_2 k v H). reflexivity. Qed.
Lemma rules_of_cons (k : key) (v : K) l : rules_of p ((k, v) :: l) = match k with KNum _ => [] | KSym s => [(s, v)] | KFun s n => [(fvar p s n, v)] end ++ rules_of p l.
Proof. reflexivity. Qed.

Definition part1 (x : string * K) : list (string * K) := if mov (fst x) then [(dot (fst x), rate p xs (snd x))] else [].
Definition part2 (x : string * K) : list (string * K) := if mov (fst x) then [(ddot (fst x), rate p xs (rate p xs (snd x)))] else [].
Definition goal_rules := r ++ flat_map part1 r ++ flat_map part2 r.

Definition same_rules := Forall2 (fun r r' : string * K => fst r = fst r' /\ snd r == snd r').

Lemma same_app R R' S S' : same_rules R R' -> same_rules S S' -> same_rules (R ++ S) (R' ++ S').
Proof. apply Forall2_app. Qed.

Lemma entries_rules : same_rules (rules_of p entries) goal_rules.
Proof.
  unfold entries, goal_rules. rewrite !rules_of_app.
  assert (G0 : forall l, incl l r -> same_rules (rules_of p (map entry0 l)) l /\ same_rules (rules_of p (map entry1 l)) (flat_map part1 l) /\ same_rules (rules_of p (map entry2 l)) (flat_map part2 l)).
  { induction l as [|[k v] l IH]; intros I; [split; [constructor|split; constructor]|].
    destruct IH as (I0 & I1 & I2); [intros z Hz; apply I; right; exact Hz|].
    assert (H : In (k, v) r) by (apply I; left; reflexivity).
    pose proof (good_static k v H) as S.
    cbn [map flat_map]. rewrite (entry0_at k v H), (entry1_at k v H), (entry2_at k v H), !rules_of_cons. unfold part1 at 1, part2 at 1. cbn [fst snd].
    split; [|split].
    - apply Forall2_cons; [split; [reflexivity|apply value_0; assumption]|exact I0].
    - destruct (mov k); [|exact I1]. apply Forall2_cons; [split; [reflexivity|apply value_1; assumption]|exact I1].
    - destruct (mov k); [|exact I2]. apply Forall2_cons; [split; [reflexivity|apply value_2; assumption]|exact I2]. }
  destruct (G0 r (fun z H => H)) as (I0 & I1 & I2). apply same_app; [exact I0|apply same_app; assumption].
Qed.

Lemma same_keys R R' : same_rules R R' -> map fst R = map fst R'.
Proof. induction 1 as [|x y R R' [E _] H IH]; [reflexivity|]. cbn. rewrite E, IH. reflexivity. Qed.
Lemma same_in R R' x : same_rules R R' -> In x R -> exists y, In y R' /\ snd x == snd y.
Proof.
  induction 1 as [|a b R R' [_ E] H IH]; intros [].
  - subst a. exists b. split; [left; reflexivity|exact E].
  - destruct (IH H0) as (y & Hy & Ey). exists y. split; [right; exact Hy|exact Ey].
Qed.
Lemma same_separate R R' : same_rules R R' -> separate R' -> separate R.
Proof.
  intros S Sp x k Hx Hk. destruct (same_in _ _ x S Hx) as (y & Hy & E). rewrite (same_keys _ _ S) in Hk.
  apply (free_eq k (snd y)); [symmetry; exact E|exact (Sp y k Hy Hk)].
Qed.

(** No value contains what is replaced. *)
Definition apart (e : K) : Prop := forall k, In k (map fst r) -> free_of k e /\ (In k ms -> free_of (dot k) e /\ free_of (ddot k) e).

Lemma apart_value k v : In (k, v) r -> apart v.
Proof.
  intros H k' Hk'. destruct G as (_ & G2 & G3). split; [exact (G3 k v k' H Hk')|]. intros M. destruct (G2 k v H) as ((_ & S) & _). exact (S k' M).
Qed.
Lemma key_not_dot k x : In k (map fst r) -> In x ms -> k <> dot x /\ k <> ddot x.
Proof.
  intros Hk Hx. destruct (good_key k Hk) as (v & H). destruct G as (_ & G2 & _). destruct (G2 k v H) as (_ & [M|(NI & _)]).
  - split; [apply (ms_dot p xs C)|apply (ms_ddot p xs C)]; assumption.
  - split; intros ->; apply NI; right; apply in_or_app; left; [apply ss_dot|apply ss_ddot]; exact Hx.
Qed.
Lemma apart_rate e : apart e -> apart (rate p xs e).
Proof.
  intros P k Hk. destruct (P k Hk) as [F Fm]. split; [|intros M; split].
  - apply rate_free; [exact F|]. intros x Hx. destruct (key_not_dot k x Hk Hx) as [N1 N2]. split; intros E; contradiction.
  - destruct (Fm M) as [F1 F2]. apply rate_free; [exact F1|]. intros x Hx. split; intros E.
    + apply dot_inj in E. subst x. apply F.
    + destruct (dot_ddot p xs C k x M Hx E).
  - destruct (Fm M) as [F1 F2]. apply rate_free; [exact F2|]. intros x Hx. split; intros E.
    + destruct (dot_ddot p xs C x k Hx M (eq_sym E)).
    + apply ddot_inj in E. subst x. apply F1.
Qed.

Lemma goal_keys k : In k (map fst goal_rules) -> exists k0, In k0 (map fst r) /\ (k = k0 \/ In k0 ms /\ (k = dot k0 \/ k = ddot k0)).
Proof.
  unfold goal_rules. rewrite !map_app, !map_flat_map'. intros H. apply in_app_or in H as [H|H]; [exists k; auto|].
  apply in_app_or in H as [H|H]; apply in_flat_map in H as ([k0 v] & H1 & H2); unfold part1, part2 in H2; cbn [fst snd] in H2;
    destruct (mov k0) eqn:M; [|destruct H2| |destruct H2]; destruct H2 as [<-|[]]; exists k0; (split; [apply (in_map fst _ _ H1)|]); right; (split; [apply mov_spec, M|]); auto.
Qed.
Lemma goal_values x : In x goal_rules -> apart (snd x).
Proof.
  unfold goal_rules. intros H. apply in_app_or in H as [H|H]; [destruct x as [k v]; exact (apart_value k v H)|].
  apply in_app_or in H as [H|H]; apply in_flat_map in H as ([k0 v] & H1 & H2); unfold part1, part2 in H2; cbn [fst snd] in H2;
    destruct (mov k0) eqn:M; [|destruct H2| |destruct H2]; destruct H2 as [<-|[]]; cbn [snd]; repeat apply apart_rate; exact (apart_value k0 v H1).
Qed.
Lemma goal_separate : separate goal_rules.
Proof.
  intros x k Hx Hk. destruct (goal_keys k Hk) as (k0 & H0 & E). destruct (goal_values x Hx k0 H0) as [F Fm].
  destruct E as [->|[M [->| ->]]]; [exact F|apply Fm, M|apply Fm, M].
Qed.

Lemma parts_nodup (f : string -> string) (h : string * K -> K) :
  (forall x y, f x = f y -> x = y) ->
  NoDup (flat_map (fun x => map fst (if mov (fst x) then [(f (fst x), h x)] else [])) r).
Proof.
  intros I. destruct G as (ND & _ & _). clear -ND I. induction r as [|[k v] l IH]; [constructor|]. cbn in ND. inversion ND as [|? ? X Y]; subst.
  cbn [flat_map fst]. destruct (mov k); [|apply IH, Y]. cbn [map app fst]. constructor; [|apply IH, Y].
  intros Z. apply in_flat_map in Z as ([k' v'] & H1 & H2). cbn [fst] in H2. destruct (mov k'); [|destruct H2]. destruct H2 as [E|[]]. apply I in E. subst k'. apply X. apply (in_map fst _ _ H1).
Qed.
Lemma goal_nodup : NoDup (map fst goal_rules).
Proof.
  unfold goal_rules. rewrite !map_app, !map_flat_map'.
  assert (I1 : forall k, In k (flat_map (fun x => map fst (part1 x)) r) -> exists k0, In k0 ms /\ k = dot k0).
  { intros k H. apply in_flat_map in H as ([k0 v] & H1 & H2). unfold part1 in H2. cbn [fst] in H2. destruct (mov k0) eqn:M; [|destruct H2]. destruct H2 as [<-|[]]. exists k0. split; [apply mov_spec, M|reflexivity]. }
  assert (I2 : forall k, In k (flat_map (fun x => map fst (part2 x)) r) -> exists k0, In k0 ms /\ k = ddot k0).
  { intros k H. apply in_flat_map in H as ([k0 v] & H1 & H2). unfold part2 in H2. cbn [fst] in H2. destruct (mov k0) eqn:M; [|destruct H2]. destruct H2 as [<-|[]]. exists k0. split; [apply mov_spec, M|reflexivity]. }
  apply NoDup_app_intro; [apply G|apply NoDup_app_intro|].
  - apply (parts_nodup dot (fun x => rate p xs (snd x))). apply dot_inj.
  - apply (parts_nodup ddot (fun x => rate p xs (rate p xs (snd x)))). apply ddot_inj.
  - intros z H1 H2. destruct (I1 z H1) as (x & Hx & ->). destruct (I2 _ H2) as (y & Hy & E). exact (dot_ddot p xs C x y Hx Hy E).
  - intros z H1 H2. apply in_app_or in H2 as [H2|H2]; [destruct (I1 z H2) as (x & Hx & ->)|destruct (I2 z H2) as (x & Hx & ->)]; destruct (key_not_dot _ x H1 Hx) as [N1 N2]; congruence.
Qed.

Lemma goal_replaced e : subs_seq goal_rules e == replaced p xs r e.
Proof.
  unfold replaced, curve_rules. apply subs_seq_perm; [|exact goal_nodup|exact goal_separate].
  unfold goal_rules. set (part0 := fun x : string * K => [x]).
  assert (E : r = flat_map part0 r). { clear. induction r as [|x l IH]; [reflexivity|]. cbn. f_equal. exact IH. }
  rewrite E at 1. apply (perm_trans (Permutation_app_head _ (flat_map_two part1 part2 r))). apply (perm_trans (flat_map_two _ _ r)).
  assert (Q : forall f g : string * K -> list (string * K), (forall x, f x = g x) -> Permutation (flat_map f r) (flat_map g r)).
  { intros f g H. rewrite (flat_map_ext f g H). apply Permutation_refl. }
  apply Q. intros [k v]. unfold part0, part1, part2. cbn [fst snd]. change (along_curve p xs) with ms. fold (mov k). destruct (mov k); reflexivity.
Qed.

Lemma entries_keys : NoDup (filter (fun k => negb (is_num k)) (map fst entries)).
Proof.
  assert (E : filter (fun k => negb (is_num k)) (map fst entries) = map KSym (map fst goal_rules)).
  { unfold entries, goal_rules. rewrite !map_app, !filter_app.
    assert (G0 : forall l, incl l r -> filter (fun k => negb (is_num k)) (map fst (map entry0 l)) = map KSym (map fst l) /\
      filter (fun k => negb (is_num k)) (map fst (map entry1 l)) = map KSym (map fst (flat_map part1 l)) /\
      filter (fun k => negb (is_num k)) (map fst (map entry2 l)) = map KSym (map fst (flat_map part2 l))).
    { induction l as [|[k v] l IH]; intros I; [split; [reflexivity|split; reflexivity]|].
      destruct IH as (I0 & I1 & I2); [intros z Hz; apply I; right; exact Hz|]. assert (H : In (k, v) r) by (apply I; left; reflexivity).
      cbn [map flat_map]. rewrite (entry0_at k v H), (entry1_at k v H), (entry2_at k v H). unfold part1 at 1, part2 at 1. cbn [fst snd filter].
      split; [|split].
      - cbn. f_equal. exact I0.
      - destruct (mov k); cbn; [f_equal|]; exact I1.
      - destruct (mov k); cbn; [f_equal|]; exact I2. }
    destruct (G0 r (fun z H => H)) as (I0 & I1 & I2). rewrite I0, I1, I2. reflexivity. }
  rewrite E. apply FinFun.Injective_map_NoDup; [intros x y Z; injection Z; auto|apply goal_nodup].
Qed.

Lemma entries_numbers b v : In (KNum b, v) entries -> v == if b then k1 else k0.
Proof.
  unfold entries. intros H. apply in_app_or in H as [H|H]; [|apply in_app_or in H as [H|H]];
    apply in_map_iff in H as ([k u] & E & H); unfold entry0, entry1, entry2 in E; cbn [fst snd] in E; injection E as E1 <-.
  - rewrite (key_0 k u H) in E1. discriminate E1.
  - rewrite (key_1 k u H) in E1. destruct (mov k) eqn:M; [discriminate E1|]. injection E1 as <-.
    rewrite (value_1 p xs C u (good_static k u H)). apply (good_constant k u H M).
  - rewrite (key_2 k u H) in E1. destruct (mov k) eqn:M; [discriminate E1|]. injection E1 as <-.
    rewrite (value_2 p xs C u (good_static k u H)). apply rate_zero, (good_constant k u H M).
Qed.

Theorem replace_curve_replaced e : replace_curve p xs r e == replaced p xs r e.
Proof.
  unfold replace_curve, replacements. fold entry0 entry1 entry2.
  change (fold_left (subst_key p) (sort_keys (dict_of entries)) e == replaced p xs r e).
  rewrite (replaced_by_dict p entries e entries_keys entries_numbers).
  - rewrite (subs_seq_values _ _ e entries_rules). apply goal_replaced.
  - rewrite (same_keys _ _ entries_rules). apply goal_nodup.
  - apply (same_separate _ _ entries_rules goal_separate).
Qed.

(** Names that stay absent. *)
Lemma subs_seq_free0 R t e : ~ In t (map fst R) -> (forall x, In x R -> free_of t (snd x)) -> ksub1 t k0 e == e -> ksub1 t k0 (subs_seq R e) == subs_seq R e.
Proof.
  revert e. induction R as [|[a b] R IH]; intros e NI F E; [exact E|]. cbn [subs_seq fold_left fst snd]. fold (subs_seq R (ksub1 a b e)).
  apply IH; [intros Z; apply NI; right; exact Z|intros x Hx; apply F; right; exact Hx|].
  apply free0_sub; [intros ->; apply NI; left; reflexivity| |exact E]. intros q. apply (F (a, b) (or_introl eq_refl)).
Qed.
End Replaced.
