(** Change of coordinates for Lagrangians and geodesic equations. *)
From Verif Require Import Alg Alg_P Arr Arr_P Arr2_P UtilsM Utils_P Spec Act_P TensorM RL_P Jac_P Tensor_P Jacobian_P Chr_P Subs_P SpecGeod.
From Coq Require Import Permutation.
Local Open Scope K_scope.

(** ** Geodesic equations *)

Section Overwrite.
Context {A : AlgOps} {L : AlgLaws A}.

Lemma inb1 n k : (k < n)%nat -> inb [n] [k] = true.
Proof. intros H. cbn [inb]. apply Nat.ltb_lt in H. rewrite H. reflexivity. Qed.

Lemma overwrite_spec (f : K -> K) l : forall s (t : arr), awf t -> shape t = [s + length l]%nat ->
  exists b, rfold (fun acc ie => aset acc [fst ie] (f (snd ie))) (combine (seq s (length l)) l) t = Ok b /\
    awf b /\ shape b = shape t /\
    forall k, (k < s + length l)%nat ->
      aget b [k] = if (k <? s)%nat then aget t [k] else f (nth (k - s) l k0).
Proof.
  induction l as [|e l IH]; intros s t W Sh; cbn [length seq combine rfold].
  - exists t. repeat split; try assumption. intros k Hk. cbn [length] in Hk. destruct (Nat.ltb_spec k s); [reflexivity|lia].
  - cbn [length] in Sh. cbn [fst snd].
    assert (I : forall k, (k < s + S (length l))%nat -> inb (shape t) [k] = true) by (intros k Hk; rewrite Sh; apply inb1; exact Hk).
    destruct (aset t [s] (f e)) as [u|x] eqn:Eu.
    2: { unfold aset in Eu. rewrite I in Eu by lia. discriminate. }
    assert (Wu := awf_aset _ _ _ _ Eu W). assert (Su := shape_aset _ _ _ _ Eu).
    destruct (IH (S s) u Wu) as (b & Eb & Wb & Sb & Gb); [rewrite Su, Sh; f_equal; lia|].
    exists b. split; [exact Eb|]. split; [exact Wb|]. split; [congruence|].
    intros k Hk. cbn [length] in Hk. rewrite Gb by lia.
    assert (Gu := aget_aset t [s] (f e) u [k] W Eu (I k Hk)).
    destruct (Nat.ltb_spec k (S s)), (Nat.ltb_spec k s); try lia.
    + rewrite Gu. destruct (shape_eqb [k] [s]) eqn:E; [|reflexivity]. apply shape_eqb_true in E. injection E; lia.
    + assert (k = s) by lia. subst k. replace (s - s)%nat with 0%nat by lia. cbn [nth].
      rewrite Gu, (proj2 (shape_eqb_true [s] [s]) eq_refl). reflexivity.
    + replace (k - s)%nat with (S (k - S s)) by lia. reflexivity.
Qed.

Lemma geodesic_transform_spec p ys n J Ji rules i a :
  awf a -> shape a = [n] -> square n J -> square n Ji -> i = 1%Z \/ i = (-1)%Z ->
  exists b, geodesic_transform p ys J Ji rules 1 [i] a = Ok b /\ awf b /\ shape b = [n] /\
    forall k, (k < n)%nat -> aget b [k] = simp (kclean (aget a [k])).
Proof.
  intros W S HJ HJi Hi.
  assert (R : rank a = 1%nat) by (unfold rank; rewrite S; reflexivity).
  destruct (jac_contract_spec n J Ji [i] a) as (t & Et & Wt & St & _);
    [split; [exact W|rewrite R; exact S]|exact HJ|exact HJi|constructor; [destruct Hi; auto|constructor]|rewrite R; reflexivity|].
  unfold geodesic_transform. rewrite R in Et. rewrite Et. cbn [rbind].
  destruct (subs_rules_spec (geodesic_rules p ys rules) t Wt) as (Ws & Ss & _).
  assert (Rs : rank (subs_rules (geodesic_rules p ys rules) t) = 1%nat) by (unfold rank; rewrite Ss, St, S; reflexivity).
  rewrite Rs.
  assert (Ln : length (data a) = n) by (unfold awf in W; rewrite W, S; cbn; lia).
  destruct (overwrite_spec (fun e => simp (kclean e)) (data a) 0 (subs_rules (geodesic_rules p ys rules) t)) as (b & Eb & Wb & Sb & Gb).
  { exact Ws. } { rewrite Ss, St, S, Ln. reflexivity. }
  exists b. split; [exact Eb|]. split; [exact Wb|]. split; [congruence|].
  intros k Hk. rewrite Gb by lia. destruct (Nat.ltb_spec k 0); [lia|].
  unfold aget. rewrite S. assert (O : offset [n] [k] = (k - 0)%nat) by (cbn; lia). rewrite O. reflexivity.
Qed.

Lemma geodesic_not_transformed {C : CleanLaws A} p ys n J Ji rules i a b :
  awf a -> shape a = [n] -> square n J -> square n Ji -> i = 1%Z \/ i = (-1)%Z ->
  geodesic_transform p ys J Ji rules 1 [i] a = Ok b ->
  shape b = [n] /\ forall k, (k < n)%nat -> unit_multiple (aget b [k]) (aget a [k]).
Proof.
  intros W S HJ HJi Hi E. destruct (geodesic_transform_spec p ys n J Ji rules i a W S HJ HJi Hi) as (b' & E' & _ & Sb & G).
  assert (b' = b) by congruence. subst b'. split; [exact Sb|]. intros k Hk.
  destruct (kclean_ok (aget a [k])) as (u & v & Huv & He). exists u, v. split; [exact Huv|].
  rewrite (G k Hk), simp_ok. exact He.
Qed.
End Overwrite.

(** ** Lagrangians *)

Section LagrangianP.
Context {A : AlgOps} {L : AlgLaws A} {DL : DiffLaws A} {SL : SubsLaws A} {YL : SymLaws A} {IL : InvLaws A}.
Add Ring Kring : kring (setoid keq_equiv kring_ext).

Lemma free_0 x : free_of x k0.
Proof. split; [apply kdiff_0|]. intros q. apply ksub1_0. Qed.

Lemma free_add x e f : free_of x e -> free_of x f -> free_of x (e + f).
Proof.
  intros [E1 E2] [F1 F2]. split; [rewrite kdiff_add, E1, F1; ring|].
  intros q. rewrite ksub1_add, E2, F2. reflexivity.
Qed.

Lemma free_mul x e f : free_of x e -> free_of x f -> free_of x (e * f).
Proof.
  intros [E1 E2] [F1 F2]. split; [rewrite kdiff_mul, E1, F1; ring|].
  intros q. rewrite ksub1_mul, E2, F2. reflexivity.
Qed.

Lemma free_sym x y : x <> y -> free_of x (ksym y).
Proof. intros H. split; [apply kdiff_sym_other; exact H|]. intros q. apply ksub1_other; exact H. Qed.

Lemma free_lsum {X} x (l : list X) f : (forall y, In y l -> free_of x (f y)) -> free_of x (lsum l f).
Proof.
  induction l as [|y l IH]; intros H; cbn [lsum]; [apply free_0|].
  apply free_add; [apply H; left; reflexivity|apply IH; intros z Hz; apply H; right; exact Hz].
Qed.

Lemma free_total p ys x e : x <> p -> ~ In x ys -> ~ In x (map dot ys) -> free_of x e -> free_of x (total p (dots ys) e).
Proof.
  intros Hp Hy Hd He. unfold total. apply free_add.
  - destruct (existsb _ _); [apply free_0|apply free_diff; assumption].
  - apply free_lsum. intros d Hin. unfold dots in Hin. apply in_map_iff in Hin as (y & <- & Hin). cbn [fst snd].
    apply free_mul; [apply free_diff; [intros ->; contradiction|exact He]|].
    apply free_sym. intros ->. apply Hd. apply in_map; exact Hin.
Qed.

Definition dot_rules (p : string) (ys : list string) (rules : list (string * K)) : list (string * K) :=
  map (fun r => (dot (fst r), total p (dots ys) (snd r))) rules.

Lemma lagrange_rules_perm p ys rules : Permutation (lagrange_rules p ys rules) (dot_rules p ys rules ++ rules).
Proof.
  induction rules as [|r R IH]; cbn; [constructor|].
  apply (perm_trans (l' := (dot (fst r), total p (dots ys) (snd r)) :: r :: lagrange_rules p ys R)); [apply perm_swap|].
  apply perm_skip. apply (perm_trans (perm_skip r IH)). apply Permutation_middle.
Qed.

Lemma dot_inj x y : dot x = dot y -> x = y.
Proof.
  unfold dot. revert y; induction x as [|a x IH]; intros [|b y] H; cbn in H.
  - reflexivity.
  - exfalso. apply (f_equal String.length) in H. cbn in H. injection H as H.
    assert (E : forall s t, String.length (s ++ t) = (String.length s + String.length t)%nat) by (induction s; intros; cbn; congruence).
    rewrite E in H. cbn in H. lia.
  - exfalso. apply (f_equal String.length) in H. cbn in H. injection H as H.
    assert (E : forall s t, String.length (s ++ t) = (String.length s + String.length t)%nat) by (induction s; intros; cbn; congruence).
    rewrite E in H. cbn in H. lia.
  - injection H as -> H. f_equal. apply IH; exact H.
Qed.

Lemma subs_seq_app R R' e : subs_seq (R ++ R') e = subs_seq R' (subs_seq R e).
Proof. unfold subs_seq. apply fold_left_app. Qed.

Lemma NoDup_app_intro {X} (l m : list X) : NoDup l -> NoDup m -> (forall z, In z l -> ~ In z m) -> NoDup (l ++ m).
Proof.
  induction l as [|x l IH]; intros Hl Hm H; cbn; [exact Hm|]. inversion Hl; subst. constructor.
  - intros Hx. apply in_app_or in Hx as [Hx|Hx]; [contradiction|]. apply (H x); [left; reflexivity|exact Hx].
  - apply IH; [assumption|assumption|]. intros z Hz. apply H. right; exact Hz.
Qed.

Section Curve.
Variables (n : nat) (p : string) (xs ys : list string) (rules : list (string * K)).
Hypothesis Hlx : length xs = n.
Hypothesis Hly : length ys = n.
Hypothesis Hd : NoDup (map fst rules).
Hypothesis HP : Permutation (map fst rules) xs.
Hypothesis Hdot : forall x x', In x xs -> In x' xs -> x <> dot x'.
Hypothesis Hdis : forall x, In x xs -> ~ In x ys /\ ~ In x (map dot ys) /\ ~ In (dot x) ys /\ ~ In (dot x) (map dot ys).
Hypothesis Hpx : forall x, In x xs -> x <> p /\ dot x <> p.
Hypothesis Hfree : forall r x, In r rules -> In x xs -> free_of x (snd r) /\ free_of (dot x) (snd r).

Let in_xs x : In x (map fst rules) -> In x xs.
Proof. apply Permutation_in; exact HP. Qed.

Let dfst : map fst (dot_rules p ys rules) = map dot (map fst rules).
Proof. unfold dot_rules. rewrite !map_map. reflexivity. Qed.

Let lr_nodup : NoDup (map fst (dot_rules p ys rules ++ rules)).
Proof.
  rewrite map_app, dfst.
  apply NoDup_app_intro.
  - apply FinFun.Injective_map_NoDup; [intros x y; apply dot_inj|exact Hd].
  - exact Hd.
  - intros z Hz Hz'. apply in_map_iff in Hz as (x & <- & Hx).
    apply (Hdot (dot x) x); [apply in_xs; exact Hz'|apply in_xs; exact Hx|reflexivity].
Qed.

Let lr_separate : separate (dot_rules p ys rules ++ rules).
Proof.
  intros r z Hr Hz. rewrite map_app, dfst in Hz.
  assert (Hz' : exists x, In x xs /\ (z = x \/ z = dot x)).
  { apply in_app_or in Hz as [Hz|Hz].
    - apply in_map_iff in Hz as (x & <- & Hx). exists x. split; [apply in_xs; exact Hx|right; reflexivity].
    - exists z. split; [apply in_xs; exact Hz|left; reflexivity]. }
  destruct Hz' as (x & Hx & Ez). destruct (Hdis x Hx) as (D1 & D2 & D3 & D4). destruct (Hpx x Hx) as [P1 P2].
  apply in_app_or in Hr as [Hr|Hr].
  - unfold dot_rules in Hr. apply in_map_iff in Hr as (r' & <- & Hr'). cbn [snd].
    destruct (Hfree r' x Hr' Hx) as [F1 F2]. destruct Ez as [-> | ->]; apply free_total; assumption.
  - destruct (Hfree r x Hr Hx) as [F1 F2]. destruct Ez as [-> | ->]; assumption.
Qed.

Lemma lagrange_subs e : subs_seq (lagrange_rules p ys rules) e == subs_seq rules (subs_seq (dot_rules p ys rules) e).
Proof.
  rewrite <- subs_seq_app. symmetry. apply subs_seq_perm.
  - apply Permutation_sym. apply lagrange_rules_perm.
  - exact lr_nodup.
  - exact lr_separate.
Qed.

(** Expressions without velocities. *)
Lemma lagrange_subs_static e : (forall x, In x xs -> forall q, ksub1 (dot x) q e == e) ->
  subs_seq (lagrange_rules p ys rules) e == subs_seq rules e.
Proof.
  intros H. rewrite lagrange_subs. apply (hom_proper _ (hom_subs_seq rules)).
  apply subs_seq_fix. intros q Hq. unfold dot_rules in Hq. apply in_map_iff in Hq as (r & <- & Hr). cbn [fst snd].
  apply H. apply in_xs. apply in_map; exact Hr.
Qed.

Lemma lagrange_subs_velocity x r : In (x, r) rules ->
  subs_seq (lagrange_rules p ys rules) (ksym (dot x)) == total p (dots ys) r.
Proof.
  intros Hin. rewrite lagrange_subs.
  assert (Hin' : In (dot x, total p (dots ys) r) (dot_rules p ys rules)).
  { unfold dot_rules. apply (in_map (fun r => (dot (fst r), total p (dots ys) (snd r)))) in Hin. exact Hin. }
  assert (Hs := lr_separate). assert (Hn := lr_nodup). rewrite <- subs_seq_app.
  apply in_split in Hin' as (X1 & X2 & E). rewrite E in Hs, Hn |- *. rewrite <- app_assoc in Hs, Hn |- *. cbn [app] in Hs, Hn |- *.
  rewrite subs_seq_sym_at.
  - apply subs_seq_free. intros z Hz. apply (Hs (dot x, total p (dots ys) r)).
    + apply in_or_app; right; left; reflexivity.
    + rewrite map_app. apply in_or_app; right; right. exact Hz.
  - rewrite map_app in Hn. cbn [map fst] in Hn. apply NoDup_remove_2 in Hn. intros H. apply Hn. apply in_or_app; left; exact H.
Qed.

Lemma total_sum e : kdiff p e == k0 \/ In p ys ->
  total p (dots ys) e == nsum n (fun a => kdiff (nth a ys ""%string) e * velocity (nth a ys ""%string)).
Proof.
  intros H. unfold total.
  assert (E : (if existsb (fun d : string * string => String.eqb (fst d) p) (dots ys) then k0 else kdiff p e) == k0).
  { destruct (existsb _ _) eqn:X; [reflexivity|]. destruct H as [H|H]; [exact H|]. exfalso.
    assert (existsb (fun d : string * string => String.eqb (fst d) p) (dots ys) = true); [|congruence].
    apply existsb_exists. exists (p, dot p). split; [|apply String.eqb_refl].
    unfold dots. apply (in_map (fun y => (y, dot y))) in H. exact H. }
  rewrite E. unfold dots. rewrite lsum_map. cbn [fst snd].
  transitivity (lsum ys (fun y => kdiff y e * velocity y)); [unfold velocity, dot; ring|].
  rewrite <- (map_nth_seq ys ""%string) at 1. rewrite Hly, lsum_map. reflexivity.
Qed.

End Curve.

Lemma lagrangian_transform_spec n p xs ys rules g l J Ji C g' :
  (1 <= n)%nat -> length xs = n -> length ys = n ->
  NoDup (map fst rules) -> Permutation (map fst rules) xs ->
  (forall x x', In x xs -> In x' xs -> x <> dot x') ->
  (forall x, In x xs -> ~ In x ys /\ ~ In x (map dot ys) /\ ~ In (dot x) ys /\ ~ In (dot x) (map dot ys)) ->
  (forall x, In x xs -> x <> p /\ dot x <> p) ->
  (forall r x, In r rules -> In x xs -> free_of x (snd r) /\ free_of (dot x) (snd r)) ->
  In p ys \/ (forall r, In r rules -> kdiff p (snd r) == k0) ->
  square n g -> (forall i j x, (i < n)%nat -> (j < n)%nat -> In x xs -> free_of (dot x) (aget g [i; j])) ->
  awf l -> shape l = [] -> aget l [] == lagrangian_of n (mfun g) (fun k => velocity (nth k xs ""%string)) ->
  calculate_jacobian xs ys rules = Ok (J, Ji, C) ->
  transform J Ji rules 2 [-1; -1]%Z g = Ok g' ->
  exists l', lagrangian_transform p ys J Ji rules 0 [] l = Ok l' /\ awf l' /\ shape l' = [] /\
    aget l' [] == lagrangian_of n (mfun g') (fun k => velocity (nth k ys ""%string)).
Proof.
  intros Hn Hlx Hly Hd HP Hdot Hdis Hpx Hfree Hp Hg Hgf Wl Sl Hl EJ Eg'.
  destruct (calculate_jacobian_spec n xs ys rules Hn Hlx Hly Hd J Ji C EJ) as (SqJ & SqJi & _ & _ & _ & GJ & _ & _).
  assert (Rl : rank l = 0%nat) by (unfold rank; rewrite Sl; reflexivity).
  destruct (transform_hom n J Ji (lagrange_rules p ys rules) [] l) as (l' & El & Wl' & Sl' & Gl & _).
  { split; [exact Wl|rewrite Rl, Sl; reflexivity]. } { exact SqJ. } { exact SqJi. } { constructor. } { rewrite Rl; reflexivity. }
  rewrite Rl in El. exists l'. split; [exact El|]. split; [exact Wl'|]. split; [congruence|].
  specialize (Gl [] ltac:(rewrite Sl; reflexivity)). cbn [map act] in Gl. rewrite Gl.
  set (S := subs_seq (lagrange_rules p ys rules)). assert (HS : hom S) by apply hom_subs_seq.
  set (s := subs_seq rules). assert (Hs : hom s) by apply hom_subs_seq.
  transitivity (S (lagrangian_of n (mfun g) (fun k => velocity (nth k xs ""%string)))); [apply (hom_proper _ HS); rewrite act_nil; exact Hl|].
  assert (Hrule : forall m, (m < n)%nat -> exists r, dget String.eqb (nth m xs ""%string) rules = Some r /\ In (nth m xs ""%string, r) rules).
  { intros m Hm. destruct (dget_in rules (nth m xs ""%string)) as [r Hr].
    - apply (Permutation_in _ (Permutation_sym HP)). apply nth_In. lia.
    - exists r. split; [exact Hr|apply dget_some_in; exact Hr]. }
  (* the Jacobian contains no old coordinate *)
  assert (sJ : forall i q, (i < n)%nat -> (q < n)%nat -> s (aget J [i; q]) == aget J [i; q]).
  { intros i q Hi Hq. destruct (Hrule i Hi) as (r & Hr & Hrin).
    assert (E : aget J [i; q] == kdiff (nth q ys ""%string) r) by (rewrite GJ by assumption; rewrite Hr; reflexivity).
    rewrite (hom_proper _ Hs _ _ E), E. apply subs_seq_free. intros x Hx.
    assert (Hx' : In x xs) by (apply (Permutation_in x HP); exact Hx).
    apply free_diff; [|apply (Hfree _ x Hrin Hx')].
    intros ->. apply (proj1 (Hdis _ Hx')). apply nth_In. rewrite Hly; exact Hq. }
  (* velocities *)
  assert (Sv : forall i, (i < n)%nat -> S (velocity (nth i xs ""%string)) == nsum n (fun a => aget J [i; a] * velocity (nth a ys ""%string))).
  { intros i Hi. destruct (Hrule i Hi) as (r & Hr & Hrin).
    unfold S, velocity at 1. change (nth i xs "" ++ "dot")%string with (dot (nth i xs ""%string)).
    rewrite (lagrange_subs_velocity p xs ys rules Hd HP Hdot Hdis Hpx Hfree _ r Hrin).
    rewrite (total_sum n p ys Hly) by (destruct Hp as [Hp|Hp]; [right; exact Hp|left; apply (Hp _ Hrin)]).
    apply nsum_ext. intros a Ha. rewrite GJ by assumption. rewrite Hr. reflexivity. }
  (* the metric *)
  assert (Sg : forall i j, (i < n)%nat -> (j < n)%nat -> S (mfun g i j) == s (aget g [i; j])).
  { intros i j Hi Hj. apply (lagrange_subs_static p xs ys rules Hd HP Hdot Hdis Hpx Hfree).
    intros x Hx. apply (Hgf i j x Hi Hj Hx). }
  unfold lagrangian_of. rewrite hom_nsum by exact HS.
  transitivity (nsum n (fun i => nsum n (fun j => nsum n (fun a => nsum n (fun b =>
     s (aget g [i; j]) * (aget J [i; a] * aget J [j; b]) * (velocity (nth a ys ""%string) * velocity (nth b ys ""%string))))))).
  { apply nsum_ext. intros i Hi. rewrite hom_nsum by exact HS. apply nsum_ext. intros j Hj.
    rewrite !(hom_mul _ HS), Sg, !Sv by assumption.
    rewrite <- nsum_scale_r, <- nsum_scale. apply nsum_ext. intros a Ha.
    rewrite <- !nsum_scale. apply nsum_ext. intros b Hb. ring. }
  destruct (transform_metric n J Ji rules g Hg SqJ SqJi) as (g'' & E'' & _ & Hg'). cbn zeta in Hg'.
  assert (g'' = g') by congruence. subst g''. fold s in Hg'.
  symmetry.
  transitivity (nsum n (fun a => nsum n (fun b => nsum n (fun i => nsum n (fun j =>
     s (aget g [i; j]) * (aget J [i; a] * aget J [j; b]) * (velocity (nth a ys ""%string) * velocity (nth b ys ""%string))))))).
  { apply nsum_ext. intros a Ha. apply nsum_ext. intros b Hb. rewrite (Hg' a b Ha Hb). unfold mcomp, mtr, hmat.
    rewrite <- nsum_scale_r. apply nsum_ext. intros i Hi. rewrite <- nsum_scale, <- nsum_scale_r. apply nsum_ext. intros j Hj.
    unfold mfun. rewrite (sJ i a Hi Ha), (sJ j b Hj Hb). ring. }
  transitivity (nsum n (fun a => nsum n (fun i => nsum n (fun j => nsum n (fun b =>
     s (aget g [i; j]) * (aget J [i; a] * aget J [j; b]) * (velocity (nth a ys ""%string) * velocity (nth b ys ""%string))))))).
  { apply nsum_ext. intros a Ha. rewrite nsum_swap. apply nsum_ext. intros i Hi. rewrite nsum_swap. reflexivity. }
  rewrite nsum_swap. apply nsum_ext. intros i Hi. rewrite nsum_swap. reflexivity.
Qed.

End LagrangianP.

(** ** Relations between the equations *)

Section Relations.
Context {A : AlgOps} {L : AlgLaws A}.
Add Ring Kring2 : kring (setoid keq_equiv kring_ext).
Variables (n : nat) (xs : list string) (g gi : nat -> nat -> K).

(** The equations from the Lagrangian and from the Christoffel symbols have the same solutions. *)
Lemma lowered_zero : inverse_fun n g gi ->
  ((forall k, (k < n)%nat -> Geo_lowered n xs g gi k == k0) <-> (forall k, (k < n)%nat -> Geo n xs g gi k == k0)).
Proof.
  intros [_ Hi]. unfold Geo_lowered. split; intros H k Hk.
  - transitivity (nsum n (fun s => kdelta k s * Geo n xs g gi s)); [symmetry; apply nsum_delta_l; exact Hk|].
    transitivity (nsum n (fun s => nsum n (fun p => gi k p * g p s) * Geo n xs g gi s)).
    { apply nsum_ext. intros s Hs. rewrite (Hi k s Hk Hs). reflexivity. }
    transitivity (nsum n (fun p => gi k p * nsum n (fun s => g p s * Geo n xs g gi s))).
    + transitivity (nsum n (fun s => nsum n (fun p => gi k p * (g p s * Geo n xs g gi s)))).
      { apply nsum_ext. intros s Hs. rewrite <- nsum_scale_r. apply nsum_ext. intros p Hp. ring. }
      rewrite nsum_swap. apply nsum_ext. intros p Hp. rewrite <- nsum_scale. reflexivity.
    + apply nsum_zero'. intros p Hp. rewrite (H p Hp). ring.
  - apply nsum_zero'. intros s Hs. rewrite (H s Hs). ring.
Qed.

(** The equations with the first coordinate as the parameter are the geodesic equations for
    x^0 = 1, from which the equation for that coordinate has been used to remove the change of
    the parameter. *)
Lemma time_from_geodesic s :
  Geo_time n xs g gi s ==
  geodesic_of n (Gam n xs g gi) (tvel xs) (tacc xs) s -
    tvel xs s * geodesic_of n (Gam n xs g gi) (tvel xs) (tacc xs) 0.
Proof.
  unfold Geo_time, time_geodesic_of, geodesic_of. change (tacc xs 0) with k0.
  set (F := fun s => nsum n (fun i => nsum n (fun j => Gam n xs g gi s i j * (tvel xs i * tvel xs j)))).
  transitivity (tacc xs s + F s - tvel xs s * F 0%nat); [|unfold F; ring].
  transitivity (tacc xs s + (F s - tvel xs s * F 0%nat)); [|ring]. apply kadd_proper; [reflexivity|].
  unfold F. rewrite <- nsum_scale, <- nsum_sub. apply nsum_ext. intros i _. rewrite <- nsum_scale, <- nsum_sub. apply nsum_ext. intros j _. ring.
Qed.
End Relations.
