(** Replacing coordinates of a curve. *)
From Coq Require Import String Permutation.
From Verif Require Import Alg Alg_P Arr Arr_P Arr2_P UtilsM Utils_P Spec Act_P TensorM RL_P Jac_P Tensor_P Jacobian_P Chr_P Subs_P Geod4_P CurveM SpecCurve Curve_P.
Import List.
Local Open Scope K_scope.

Lemma NoDup_app_l {X} (l m : list X) : NoDup (l ++ m) -> NoDup l.
Proof. induction l as [|x l IH]; intros H; [constructor|]. inversion H as [|? ? H1 H2]; subst. constructor; [intros Z; apply H1, in_or_app; left; exact Z|apply IH, H2]. Qed.
Lemma NoDup_app_r {X} (l m : list X) : NoDup (l ++ m) -> NoDup m.
Proof. induction l as [|x l IH]; intros H; [exact H|]. inversion H; subst. apply IH. assumption. Qed.
Lemma NoDup_app_disj {X} (l m : list X) z : NoDup (l ++ m) -> In z l -> In z m -> False.
Proof.
  induction l as [|x l IH]; intros H H1 H2; [destruct H1|]. inversion H as [|? ? H3 H4]; subst. destruct H1 as [->|H1]; [apply H3, in_or_app; right; exact H2|exact (IH H4 H1 H2)].
Qed.

Section Names.
Variables (p : string) (xs : list string).
Notation ms := (movers p xs).
Notation ss := (curve_symbols p xs).
Hypothesis C : clear_names p xs.

Lemma names_nodup : NoDup ss.
Proof. unfold clear_names in C. inversion C; subst. eapply NoDup_app_l; eassumption. Qed.
Lemma functions_nodup : NoDup (function_names p xs).
Proof. unfold clear_names in C. inversion C; subst. eapply NoDup_app_r; eassumption. Qed.
Lemma names_apart s f : In s ss -> In f (function_names p xs) -> s <> f.
Proof. intros H1 H2 ->. unfold clear_names in C. inversion C; subst. eapply NoDup_app_disj; eassumption. Qed.
Lemma parameter_apart s : In s ss \/ In s (function_names p xs) -> s <> p.
Proof. intros H ->. unfold clear_names in C. inversion C as [|? ? H1 H2]; subst. apply H1, in_or_app. exact H. Qed.

Lemma in_ss s : In s ss <-> exists x, In x ms /\ (s = x \/ s = dot x \/ s = ddot x).
Proof.
  unfold curve_symbols. rewrite !in_app_iff, !in_map_iff. split.
  - intros [H|[(x & <- & H)|(x & <- & H)]]; [exists s|exists x|exists x]; auto.
  - intros (x & H & [-> |[-> | ->]]); [left; exact H|right; left; exists x; auto|right; right; exists x; auto].
Qed.
Lemma in_functions f : In f (function_names p xs) <-> exists s n, In s ss /\ n < 3 /\ f = fvar p s n.
Proof.
  unfold function_names. rewrite in_flat_map. split.
  - intros (n & Hn & H). apply in_map_iff in H as (s & <- & Hs). exists s, n. split; [exact Hs|]. split; [|reflexivity].
    destruct Hn as [<-|[<-|[<-|[]]]]; lia.
  - intros (s & n & Hs & Hn & ->). exists n. split; [destruct n as [|[|[|n]]]; cbn; auto; lia|]. apply in_map_iff. exists s. split; [reflexivity|exact Hs].
Qed.

Lemma fvar_inj s n s' n' : In s ss -> In s' ss -> n < 3 -> n' < 3 -> fvar p s n = fvar p s' n' -> s = s' /\ n = n'.
Proof.
  intros Hs Hs' Hn Hn' E. pose proof functions_nodup as ND. unfold function_names in ND. cbn [flat_map] in ND. rewrite app_nil_r in ND.
  assert (I : forall k s, In s ss -> In (fvar p s k) (map (fun s => function_name p s k) ss)).
  { intros k u Hu. apply in_map_iff. exists u. split; [reflexivity|exact Hu]. }
  assert (J : forall k, NoDup (map (fun s => function_name p s k) ss) -> forall s s', In s ss -> In s' ss -> fvar p s k = fvar p s' k -> s = s').
  { intros k Hk. generalize Hk. generalize ss. clear. induction l as [|a l IH]; intros Hk s s' [] ; [|].
    - subst a. intros [->|H'] E; [reflexivity|]. inversion Hk as [|? ? X _]; subst. destruct X. apply in_map_iff. exists s'. split; [symmetry; exact E|exact H'].
    - intros [->|H'] E; inversion Hk as [|? ? X Y]; subst; [destruct X; apply in_map_iff; exists s; split; [exact E|exact H]|exact (IH Y s s' H H' E)]. }
  assert (D0 := NoDup_app_l _ _ ND). assert (ND' := NoDup_app_r _ _ ND). assert (D1 := NoDup_app_l _ _ ND'). assert (D2 := NoDup_app_r _ _ ND').
  destruct n as [|[|[|n]]], n' as [|[|[|n']]]; try lia; try (split; [|reflexivity]; solve [exact (J 0%nat D0 s s' Hs Hs' E)|exact (J 1%nat D1 s s' Hs Hs' E)|exact (J 2%nat D2 s s' Hs Hs' E)]); exfalso.
  - apply (NoDup_app_disj _ _ (fvar p s 0) ND); [apply I, Hs|rewrite E; apply in_or_app; left; apply I, Hs'].
  - apply (NoDup_app_disj _ _ (fvar p s 0) ND); [apply I, Hs|rewrite E; apply in_or_app; right; apply I, Hs'].
  - apply (NoDup_app_disj _ _ (fvar p s' 0) ND); [apply I, Hs'|rewrite <- E; apply in_or_app; left; apply I, Hs].
  - apply (NoDup_app_disj _ _ (fvar p s 1) ND'); [apply I, Hs|rewrite E; apply I, Hs'].
  - apply (NoDup_app_disj _ _ (fvar p s' 0) ND); [apply I, Hs'|rewrite <- E; apply in_or_app; right; apply I, Hs].
  - apply (NoDup_app_disj _ _ (fvar p s' 1) ND'); [apply I, Hs'|rewrite <- E; apply I, Hs].
Qed.

Lemma ms_dot x y : In x ms -> In y ms -> x <> dot y.
Proof.
  intros Hx Hy E. pose proof names_nodup as ND. unfold curve_symbols in ND.
  apply (NoDup_app_disj _ _ x ND Hx). apply in_or_app. left. apply in_map_iff. exists y. split; [symmetry; exact E|exact Hy].
Qed.
Lemma ms_ddot x y : In x ms -> In y ms -> x <> ddot y.
Proof.
  intros Hx Hy E. pose proof names_nodup as ND. unfold curve_symbols in ND.
  apply (NoDup_app_disj _ _ x ND Hx). apply in_or_app. right. apply in_map_iff. exists y. split; [symmetry; exact E|exact Hy].
Qed.
Lemma dot_ddot x y : In x ms -> In y ms -> dot x <> ddot y.
Proof.
  intros Hx Hy E. pose proof names_nodup as ND. unfold curve_symbols in ND. apply NoDup_app_r in ND.
  apply (NoDup_app_disj _ _ (dot x) ND); apply in_map_iff; [exists x|exists y]; (split; [|assumption]); [reflexivity|symmetry; exact E].
Qed.
Lemma ddot_inj x y : ddot x = ddot y -> x = y.
Proof.
  intros E. apply dot_inj. unfold dot. unfold ddot in E. revert y E. induction x as [|a x IH]; intros [|b y] E; cbn in *.
  - reflexivity.
  - exfalso. apply (f_equal String.length) in E. cbn in E.
    assert (G : forall s t, String.length (s ++ t) = (String.length s + String.length t)%nat) by (induction s; intros; cbn; congruence).
    rewrite G in E. cbn in E. lia.
  - exfalso. apply (f_equal String.length) in E. cbn in E.
    assert (G : forall s t, String.length (s ++ t) = (String.length s + String.length t)%nat) by (induction s; intros; cbn; congruence).
    rewrite G in E. cbn in E. lia.
  - injection E as -> E. rewrite (IH _ E). reflexivity.
Qed.

Lemma ss_x x : In x ms -> In x ss. Proof. intros H. apply in_ss. exists x. auto. Qed.
Lemma ss_dot x : In x ms -> In (dot x) ss. Proof. intros H. apply in_ss. exists x. auto. Qed.
Lemma ss_ddot x : In x ms -> In (ddot x) ss. Proof. intros H. apply in_ss. exists x. auto. Qed.

Lemma moving_perm : Permutation (moving_symbols p xs) ss.
Proof.
  unfold moving_symbols, curve_symbols.
  assert (P : Permutation (map ddot ms ++ map dot ms ++ ms) (ms ++ map dot ms ++ map ddot ms)).
  { rewrite app_assoc. apply (perm_trans (Permutation_app_comm _ _)). apply Permutation_app_head. apply Permutation_app_comm. }
  assert (ND : NoDup (map ddot ms ++ map dot ms ++ ms)).
  { apply (Permutation_NoDup (Permutation_sym P)). exact names_nodup. }
  rewrite (nodup_fixed_point _ ND). exact P.
Qed.
Lemma in_moving s : In s (moving_symbols p xs) <-> In s ss.
Proof. split; apply Permutation_in; [|apply Permutation_sym]; apply moving_perm. Qed.
Lemma moving_list : moving_symbols p xs = map ddot ms ++ map dot ms ++ ms.
Proof.
  unfold moving_symbols. apply nodup_fixed_point. apply (Permutation_NoDup (l := ss)); [|exact names_nodup].
  unfold curve_symbols. apply Permutation_sym. rewrite app_assoc. apply (perm_trans (Permutation_app_comm _ _)). apply Permutation_app_head. apply Permutation_app_comm.
Qed.
End Names.

Section Curve.
Context {A : AlgOps} {L : AlgLaws A} {DL : DiffLaws A} {SL : SubsLaws A} {YL : SymLaws A} {VL : SelfLaws A}.
Add Ring Kring : kring (setoid keq_equiv kring_ext).
Variables (p : string) (xs : list string).
Notation ms := (movers p xs).
Notation ss := (curve_symbols p xs).
Hypothesis C : clear_names p xs.

(** The jets: coordinates, velocities and accelerations become functions and their derivatives. *)
Definition jet_pairs : list (string * string) :=
  map (fun x => (x, fvar p x 0)) ms ++ map (fun x => (dot x, fvar p x 1)) ms ++ map (fun x => (ddot x, fvar p x 2)) ms.
Definition jets : list (string * K) := map (fun st => (fst st, ksym (snd st))) jet_pairs.

Lemma jet_fst : map fst jet_pairs = ss.
Proof. unfold jet_pairs, curve_symbols. rewrite !map_app, !map_map. cbn [fst]. rewrite map_id. reflexivity. Qed.
Lemma jet_in s t : In (s, t) jet_pairs <-> exists x, In x ms /\ ((s = x /\ t = fvar p x 0) \/ (s = dot x /\ t = fvar p x 1) \/ (s = ddot x /\ t = fvar p x 2)).
Proof.
  unfold jet_pairs. rewrite !in_app_iff, !in_map_iff. split.
  - intros [(x & E & H)|[(x & E & H)|(x & E & H)]]; injection E as <- <-; exists x; auto.
  - intros (x & H & [[-> ->]|[[-> ->]|[-> ->]]]); [left|right; left|right; right]; exists x; auto.
Qed.
Lemma jet_snd_in t : In t (map snd jet_pairs) -> exists x n, In x ms /\ n < 3 /\ t = fvar p x n.
Proof.
  intros H. apply in_map_iff in H as ([s u] & <- & H). apply jet_in in H as (x & Hx & [[_ ->]|[[_ ->]|[_ ->]]]);
    [exists x, 0%nat|exists x, 1%nat|exists x, 2%nat]; (split; [exact Hx|]); (split; [lia|reflexivity]).
Qed.
Lemma jet_fun t : In t (map snd jet_pairs) -> In t (function_names p xs).
Proof. intros H. apply jet_snd_in in H as (x & n & Hx & Hn & ->). apply in_functions. exists x, n. split; [apply ss_x, Hx|]. split; [exact Hn|reflexivity]. Qed.
Lemma jet_snd_nodup : NoDup (map snd jet_pairs).
Proof.
  assert (ND : NoDup ms) by (exact (NoDup_app_l _ _ (names_nodup p xs C))).
  assert (J : forall n, n < 3 -> NoDup (map (fun x => fvar p x n) ms)).
  { intros n Hn. assert (G : forall l, incl l ms -> NoDup l -> NoDup (map (fun x => fvar p x n) l)).
    { induction l as [|a l IH]; intros I ND'; [constructor|]. inversion ND' as [|? ? X Y]; subst. cbn. constructor; [|apply IH; [intros z Hz; apply I; right; exact Hz|exact Y]].
      intros Z. apply in_map_iff in Z as (b & E & Hb). destruct (fvar_inj p xs C b n a n) as [-> _]; auto; apply ss_x, I; [right; exact Hb|left; reflexivity]. }
    apply G; [intros z Hz; exact Hz|exact ND]. }
  unfold jet_pairs. rewrite !map_app, !map_map. cbn [snd].
  apply NoDup_app_intro; [apply J; lia|apply NoDup_app_intro; [apply J; lia|apply J; lia|]|].
  - intros z H1 H2. apply in_map_iff in H1 as (x & <- & Hx). apply in_map_iff in H2 as (y & E & Hy).
    destruct (fvar_inj p xs C y 2 x 1) as [_ X]; auto; try apply ss_x; auto. discriminate X.
  - intros z H1 H2. apply in_map_iff in H1 as (x & <- & Hx). apply in_app_or in H2 as [H2|H2]; apply in_map_iff in H2 as (y & E & Hy).
    + destruct (fvar_inj p xs C y 1 x 0) as [_ X]; auto; try apply ss_x; auto; try lia.
    + destruct (fvar_inj p xs C y 2 x 0) as [_ X]; auto; try apply ss_x; auto; try lia.
Qed.

Lemma jets_keys : map fst jets = ss.
Proof. unfold jets. rewrite map_map. cbn [fst]. apply jet_fst. Qed.
Lemma jets_separate : separate jets.
Proof.
  intros r x Hr Hx. rewrite jets_keys in Hx. unfold jets in Hr. apply in_map_iff in Hr as ([s t] & <- & H). cbn [snd].
  apply free_sym. apply (names_apart p xs C x t Hx). apply jet_fun. apply (in_map snd _ _ H).
Qed.
Lemma jets_nodup : NoDup (map fst jets).
Proof. rewrite jets_keys. apply names_nodup, C. Qed.

(** The value of a derivative by the name of a function. *)
Lemma diff_function f e : In f (function_names p xs) -> free_of f e ->
  kdiff f (subs_seq jets e) == lsum jet_pairs (fun st => subs_seq jets (kdiff (fst st) e) * kdiff f (ksym (snd st))).
Proof.
  intros Hf [Fe _]. rewrite (chain_seq jets f e).
  - assert (Z : subs_seq jets (kdiff f e) == k0).
    { transitivity (subs_seq jets k0); [apply (hom_proper _ (hom_subs_seq jets)), Fe|apply hom_0, hom_subs_seq]. }
    rewrite Z. unfold jets at 1. rewrite lsum_map. cbn [fst snd]. ring.
  - rewrite jets_keys. intros Z. exact (names_apart p xs C f f Z Hf eq_refl).
  - exact jets_nodup.
  - exact jets_separate.
Qed.
Lemma diff_parameter e : kdiff p (subs_seq jets e) == subs_seq jets (kdiff p e).
Proof.
  rewrite (chain_seq jets p e).
  - assert (Z : lsum jets (fun r => subs_seq jets (kdiff (fst r) e) * kdiff p (snd r)) == k0).
    { transitivity (lsum jets (fun _ => k0)).
      - apply lsum_ext. intros r Hr. unfold jets in Hr. apply in_map_iff in Hr as ([s t] & <- & H). cbn [fst snd].
        rewrite (kdiff_sym_other p t); [ring|]. apply not_eq_sym, (parameter_apart p xs C). right. apply jet_fun, (in_map snd _ _ H).
      - apply lsum_zero. }
    rewrite Z. ring.
  - rewrite jets_keys. intros Z. exact (parameter_apart p xs C p (or_introl Z) eq_refl).
  - exact jets_nodup.
  - exact jets_separate.
Qed.

(** *** Derivatives along the curve *)

Definition diff_pairs (order : nat) : list (string * string) :=
  flat_map (fun n => map (fun s => (fvar p s n, fvar p s (S n))) (moving_symbols p xs)) (seq 0 (S order)).

Lemma diff_pairs_in order f g : In (f, g) (diff_pairs order) -> exists s n, In s ss /\ n <= order /\ f = fvar p s n /\ g = fvar p s (S n).
Proof.
  unfold diff_pairs. intros H. apply in_flat_map in H as (n & Hn & H). apply in_map_iff in H as (s & E & Hs). injection E as <- <-.
  apply in_seq in Hn. exists s, n. split; [apply (in_moving p xs C), Hs|]. split; [lia|]. split; reflexivity.
Qed.
Lemma diff_pairs_of order s n : In s ss -> n <= order -> In (fvar p s n, fvar p s (S n)) (diff_pairs order).
Proof.
  intros Hs Hn. apply in_flat_map. exists n. split; [apply in_seq; lia|]. apply in_map_iff. exists s. split; [reflexivity|apply (in_moving p xs C), Hs].
Qed.
Lemma diff_pairs_nodup order : order < 2 -> NoDup (diff_pairs order).
Proof.
  intros Ho. assert (ND : NoDup (moving_symbols p xs)) by (unfold moving_symbols; apply NoDup_nodup).
  assert (J : forall n, n < 2 -> NoDup (map (fun s => (fvar p s n, fvar p s (S n))) (moving_symbols p xs))).
  { intros n Hn. assert (G : forall l, incl l ss -> NoDup l -> NoDup (map (fun s => (fvar p s n, fvar p s (S n))) l)).
    { induction l as [|a l IH]; intros I ND'; [constructor|]. inversion ND' as [|? ? X Y]; subst. cbn [map]. constructor; [|apply IH; [intros z Hz; apply I; right; exact Hz|exact Y]].
      intros Z. apply in_map_iff in Z as (b & E & Hb). injection E as E _. destruct (fvar_inj p xs C b n a n) as [-> _]; try lia; auto; apply I; [right; exact Hb|left; reflexivity]. }
    apply G; [intros z Hz; apply (in_moving p xs C), Hz|exact ND]. }
  unfold diff_pairs. destruct order as [|[|order]]; [| |lia]; cbn [seq flat_map]; rewrite app_nil_r; [apply J; lia|].
  apply NoDup_app_intro; [apply J; lia|apply J; lia|].
  intros z H1 H2. apply in_map_iff in H1 as (x & <- & Hx). apply in_map_iff in H2 as (y & E & Hy). injection E as E _.
  destruct (fvar_inj p xs C y 1 x 0) as [_ X]; try lia; auto; apply (in_moving p xs C); assumption.
Qed.

Lemma inner_hit order s n : order < 2 -> In s ss -> n <= order ->
  lsum (diff_pairs order) (fun f => kdiff (fst f) (ksym (fvar p s n)) * ksym (snd f)) == ksym (fvar p s (S n)).
Proof.
  intros Ho Hs Hn. rewrite (lsum_one _ (fvar p s n, fvar p s (S n))).
  - cbn [fst snd]. rewrite kdiff_sym_same. ring.
  - apply diff_pairs_nodup, Ho.
  - apply diff_pairs_of; assumption.
  - intros [f g] H Nf. apply diff_pairs_in in H as (s' & n' & Hs' & Hn' & -> & ->). cbn [fst snd].
    rewrite kdiff_sym_other; [ring|]. intros E. destruct (fvar_inj p xs C s' n' s n) as [-> ->]; auto; lia.
Qed.


Lemma value_diff_proper order : Proper (keq ==> keq) (value_diff p xs order).
Proof.
  intros e f E. unfold value_diff, total. apply kadd_proper.
  - destruct (existsb _ _); [reflexivity|apply kdiff_proper, E].
  - apply lsum_ext. intros d _. apply kmul_proper; [apply kdiff_proper, E|reflexivity].
Qed.

Lemma jets_sym s t : In (s, t) jet_pairs -> subs_seq jets (ksym s) == ksym t.
Proof.
  intros H. assert (H' : In (s, ksym t) jets) by (unfold jets; apply in_map_iff; exists (s, t); split; [reflexivity|exact H]).
  destruct (in_split _ _ H') as (X1 & X2 & E). pose proof jets_nodup as ND. rewrite E, map_app in ND. cbn [map fst] in ND.
  rewrite E. rewrite subs_seq_sym_at.
  - apply subs_seq_sym_other. intros Z. apply (names_apart p xs C t t); [|apply jet_fun, (in_map snd _ _ H)|reflexivity].
    rewrite <- jets_keys, E, map_app. apply in_or_app. right. right. exact Z.
  - intros Z. apply NoDup_remove_2 in ND. apply ND. apply in_or_app. left. exact Z.
Qed.

Lemma value_diff_jets order e : order < 2 -> no_functions p xs e ->
  (forall x, In x ms -> kdiff (ddot x) e == k0) -> (order = 0 -> forall x, In x ms -> kdiff (dot x) e == k0) ->
  value_diff p xs order (subs_seq jets e) == subs_seq jets (rate p xs e).
Proof.
  intros Ho Ne H2 H1. unfold value_diff. fold (diff_pairs order). unfold total.
  assert (Ex : existsb (fun d => String.eqb (fst d) p) (diff_pairs order) = false).
  { apply Bool.not_true_iff_false. intros Z. apply existsb_exists in Z as ([f g] & H & E). cbn [fst] in E. apply String.eqb_eq in E. subst f.
    apply diff_pairs_in in H as (s & n & Hs & Hn & E & _). apply (parameter_apart p xs C p); [|reflexivity]. right. apply in_functions. exists s, n. split; [exact Hs|]. split; [lia|exact E]. }
  rewrite Ex, diff_parameter.
  assert (J0 : forall y, y == k0 -> subs_seq jets y == k0).
  { intros y Hy. transitivity (subs_seq jets k0); [apply (hom_proper _ (hom_subs_seq jets)), Hy|apply hom_0, hom_subs_seq]. }
  assert (E1 : lsum (diff_pairs order) (fun d => kdiff (fst d) (subs_seq jets e) * ksym (snd d)) ==
    lsum jet_pairs (fun st => subs_seq jets (kdiff (fst st) e) * lsum (diff_pairs order) (fun d => kdiff (fst d) (ksym (snd st)) * ksym (snd d)))).
  { transitivity (lsum (diff_pairs order) (fun d => lsum jet_pairs (fun st => subs_seq jets (kdiff (fst st) e) * (kdiff (fst d) (ksym (snd st)) * ksym (snd d))))).
    - apply lsum_ext. intros [f g] H. cbn [fst snd]. apply diff_pairs_in in H as (s & n & Hs & Hn & -> & ->).
      assert (If : In (fvar p s n) (function_names p xs)) by (apply in_functions; exists s, n; split; [exact Hs|]; split; [lia|reflexivity]).
      rewrite (diff_function (fvar p s n) e If (Ne _ If)). rewrite <- lsum_scale_r. apply lsum_ext. intros st _. ring.
    - rewrite lsum_swap. apply lsum_ext. intros st _. rewrite lsum_scale. reflexivity. }
  rewrite E1. unfold jet_pairs at 1. rewrite !lsum_app, !lsum_map. cbn [fst snd].
  assert (E3 : lsum ms (fun x => subs_seq jets (kdiff (ddot x) e) * lsum (diff_pairs order) (fun d => kdiff (fst d) (ksym (fvar p x 2)) * ksym (snd d))) == k0).
  { apply lsum_zero'. intros x Hx. rewrite (J0 _ (H2 x Hx)). ring. }
  rewrite E3. unfold rate. rewrite (hom_add _ (hom_subs_seq jets)), (hom_lsum _ _ _ (hom_subs_seq jets)).
  change (along_curve p xs) with ms.
  assert (E4 : lsum ms (fun x => subs_seq jets (kdiff x e * velocity x + kdiff (x ++ "dot")%string e * acceleration x)) ==
    lsum ms (fun x => subs_seq jets (kdiff x e) * ksym (fvar p x 1)) + lsum ms (fun x => subs_seq jets (kdiff (dot x) e) * ksym (fvar p x 2))).
  { rewrite <- lsum_add. apply lsum_ext. intros x Hx. rewrite (hom_add _ (hom_subs_seq jets)), !(hom_mul _ (hom_subs_seq jets)).
    unfold velocity, acceleration.
    rewrite (jets_sym (x ++ "dot")%string (fvar p x 1)) by (apply jet_in; exists x; split; [exact Hx|]; right; left; split; reflexivity).
    rewrite (jets_sym (x ++ "ddot")%string (fvar p x 2)) by (apply jet_in; exists x; split; [exact Hx|]; right; right; split; reflexivity). reflexivity. }
  rewrite E4.
  assert (E5 : lsum ms (fun x => subs_seq jets (kdiff x e) * lsum (diff_pairs order) (fun d => kdiff (fst d) (ksym (fvar p x 0)) * ksym (snd d))) == lsum ms (fun x => subs_seq jets (kdiff x e) * ksym (fvar p x 1))).
  { apply lsum_ext. intros x Hx. rewrite inner_hit; [reflexivity|exact Ho|apply ss_x, Hx|lia]. }
  assert (E6 : lsum ms (fun x => subs_seq jets (kdiff (dot x) e) * lsum (diff_pairs order) (fun d => kdiff (fst d) (ksym (fvar p x 1)) * ksym (snd d))) == lsum ms (fun x => subs_seq jets (kdiff (dot x) e) * ksym (fvar p x 2))).
  { apply lsum_ext. intros x Hx. destruct order as [|order].
    - rewrite (J0 _ (H1 eq_refl x Hx)). ring.
    - rewrite inner_hit; [reflexivity|exact Ho|apply ss_x, Hx|lia]. }
  rewrite E5, E6. ring.
Qed.

(** *** Values *)
Lemma free_diff' x y e : free_of x e -> free_of x (kdiff y e).
Proof. intros F. destruct (String.string_dec x y) as [->|N]; [apply free_zero, F|apply free_diff; assumption]. Qed.

Lemma rate_free t e : free_of t e ->
  (forall x, In x ms -> (t = dot x -> kdiff x e == k0) /\ (t = ddot x -> kdiff (dot x) e == k0)) -> free_of t (rate p xs e).
Proof.
  intros F H. unfold rate. apply free_add; [apply free_diff', F|]. apply free_lsum. intros x Hx. destruct (H x Hx) as [H1 H2]. apply free_add.
  - destruct (String.string_dec t (dot x)) as [E|NE].
    + apply free_zero. rewrite (H1 E). ring.
    + apply free_mul; [apply free_diff', F|apply free_sym, NE].
  - destruct (String.string_dec t (ddot x)) as [E|NE].
    + apply free_zero. rewrite (H2 E). ring.
    + apply free_mul; [apply free_diff', F|apply free_sym, NE].
Qed.

Lemma rate_functions e : no_functions p xs e -> no_functions p xs (rate p xs e).
Proof.
  intros F f Hf. apply rate_free; [apply F, Hf|]. intros x Hx. split; intros ->; exfalso.
  - apply (names_apart p xs C (dot x) (dot x)); [apply ss_dot, Hx|exact Hf|reflexivity].
  - apply (names_apart p xs C (ddot x) (ddot x)); [apply ss_ddot, Hx|exact Hf|reflexivity].
Qed.

(** The velocity of something static has no accelerations. *)
Lemma rate_static e : static p xs e -> forall x, In x ms -> free_of (ddot x) (rate p xs e).
Proof.
  intros [F S] x Hx. apply rate_free; [apply S, Hx|]. intros y Hy. split; intros E.
  - exfalso. exact (dot_ddot p xs C y x Hy Hx (eq_sym E)).
  - apply (S y Hy).
Qed.

Lemma function_jets e : static p xs e -> value_function p xs e == subs_seq jets e.
Proof.
  intros [F S]. set (R := fun n : nat => map (fun x => (x, ksym (fvar p x 0))) ms).
  assert (E1 : value_function p xs e == subs_seq (R 0) e).
  { unfold value_function, coord_functions. rewrite (moving_list p xs C), !map_app, !map_map. change (subst_rules ?X e) with (subs_seq X e).
    rewrite app_assoc, subs_seq_app. apply (hom_proper _ (hom_subs_seq (R 0))). apply subs_seq_free. intros z Hz. rewrite map_app, !map_map in Hz. cbn [fst] in Hz.
    apply in_app_or in Hz as [Hz|Hz]; apply in_map_iff in Hz as (x & <- & Hx); apply (S x Hx). }
  assert (P : Permutation jets ((map (fun x => (dot x, ksym (fvar p x 1))) ms ++ map (fun x => (ddot x, ksym (fvar p x 2))) ms) ++ R 0)).
  { unfold jets, jet_pairs. rewrite !map_app, !map_map. cbn [fst snd]. apply (perm_trans (Permutation_app_comm _ _)). apply Permutation_refl. }
  rewrite E1. rewrite (subs_seq_perm _ _ P jets_nodup jets_separate e). rewrite subs_seq_app. apply (hom_proper _ (hom_subs_seq (R 0))). symmetry. apply subs_seq_free.
  intros z Hz. rewrite map_app, !map_map in Hz. cbn [fst] in Hz. apply in_app_or in Hz as [Hz|Hz]; apply in_map_iff in Hz as (x & <- & Hx); apply (S x Hx).
Qed.

Lemma inverse_jets e : (forall f, In f (function_names p xs) -> ksub1 f k0 e == e) -> value_inverse p xs (subs_seq jets e) == e.
Proof.
  intros F.
  assert (P : Permutation jet_pairs (map (fun x => (ddot x, fvar p x 2)) ms ++ map (fun x => (dot x, fvar p x 1)) ms ++ map (fun x => (x, fvar p x 0)) ms)).
  { unfold jet_pairs. rewrite app_assoc. apply Permutation_sym. rewrite app_assoc. apply (perm_trans (Permutation_app_comm _ _)). rewrite <- app_assoc. apply Permutation_app_head. apply Permutation_app_comm. }
  unfold value_inverse, inverse_coord_functions. change (subst_rules ?X ?y) with (subs_seq X y).
  replace (map (fun x => (fvar p x 2, ksym (ddot x))) ms ++ map (fun x => (fvar p x 1, ksym (dot x))) ms ++ map (fun x => (fvar p x 0, ksym x)) ms)
    with (map (fun st : string * string => (snd st, ksym (fst st))) (map (fun x => (ddot x, fvar p x 2)) ms ++ map (fun x => (dot x, fvar p x 1)) ms ++ map (fun x => (x, fvar p x 0)) ms))
    by (rewrite !map_app, !map_map; reflexivity).
  unfold jets. apply (rename_back_any jet_pairs _ e P).
  - rewrite jet_fst. apply names_nodup, C.
  - apply jet_snd_nodup.
  - intros t Ht Ht'. rewrite jet_fst in Ht'. apply (names_apart p xs C t t Ht'); [apply jet_fun, Ht|reflexivity].
  - intros t Ht. apply F, jet_fun, Ht.
Qed.

Lemma value_inverse_proper : Proper (keq ==> keq) (value_inverse p xs).
Proof. intros e f E. exact (hom_proper _ (hom_subs_seq _) _ _ E). Qed.

Lemma free_0q f e : free_of f e -> ksub1 f k0 e == e.
Proof. intros [_ F]. apply F. Qed.

Lemma value_0 v : static p xs v -> value_inverse p xs (value_function p xs v) == v.
Proof.
  intros S. rewrite (value_inverse_proper _ _ (function_jets v S)). apply inverse_jets. intros f Hf. apply free_0q, (proj1 S), Hf.
Qed.
Lemma value_1 v : static p xs v -> value_inverse p xs (value_diff p xs 0 (value_function p xs v)) == rate p xs v.
Proof.
  intros S. transitivity (value_inverse p xs (subs_seq jets (rate p xs v))).
  - apply value_inverse_proper. rewrite (value_diff_proper 0 _ _ (function_jets v S)). apply value_diff_jets; [lia|apply S| |]; [intros x Hx|intros _ x Hx]; apply (proj2 S x Hx).
  - apply inverse_jets. intros f Hf. apply free_0q, rate_functions; [apply S|exact Hf].
Qed.
Lemma value_2 v : static p xs v -> value_inverse p xs (value_diff p xs 1 (value_diff p xs 0 (value_function p xs v))) == rate p xs (rate p xs v).
Proof.
  intros S. transitivity (value_inverse p xs (subs_seq jets (rate p xs (rate p xs v)))).
  - apply value_inverse_proper. transitivity (value_diff p xs 1 (subs_seq jets (rate p xs v))).
    + apply value_diff_proper. rewrite (value_diff_proper 0 _ _ (function_jets v S)). apply value_diff_jets; [lia|apply S| |]; [intros x Hx|intros _ x Hx]; apply (proj2 S x Hx).
    + apply value_diff_jets; [lia|apply rate_functions, S| |]; [intros x Hx|intros Z; discriminate Z]. apply (rate_static v S x Hx).
  - apply inverse_jets. intros f Hf. apply free_0q, rate_functions; [apply rate_functions, S|exact Hf].
Qed.
Lemma rate_zero e : e == k0 -> rate p xs e == k0.
Proof.
  intros E. assert (D : forall x, kdiff x e == k0) by (intros x; rewrite E; apply kdiff_0).
  unfold rate. rewrite D. rewrite lsum_zero'; [ring|]. intros x _. rewrite !D. ring.
Qed.
Lemma rate_constant v : static p xs v -> free_of p v -> (forall x, In x ms -> free_of x v) -> rate p xs v == k0.
Proof.
  intros S Hp Hx. unfold rate. rewrite (proj1 Hp). rewrite lsum_zero'; [ring|]. intros x Hx'. destruct (proj2 S x Hx') as [[D _] _]. rewrite (proj1 (Hx x Hx')), D. ring.
Qed.

(** The final functions. *)
Lemma function_as_functions e : value_function p xs e == as_functions p xs e.
Proof.
  unfold value_function, coord_functions, as_functions. change (subst_rules ?X e) with (subs_seq X e). apply subs_seq_perm.
  - apply Permutation_map. apply moving_perm, C.
  - rewrite map_map. cbn [fst]. rewrite map_id. unfold moving_symbols. apply NoDup_nodup.
  - intros r x Hr Hx. rewrite map_map in Hx. cbn [fst] in Hx. rewrite map_id in Hx. apply in_map_iff in Hr as (s & <- & Hs). cbn [snd].
    apply (in_moving p xs C) in Hx. apply (in_moving p xs C) in Hs. apply free_sym. apply (names_apart p xs C); [exact Hx|]. apply in_functions. exists s, 0%nat. split; [exact Hs|]. split; [lia|reflexivity].
Qed.
Lemma functions_back e : (forall s, In s ss -> ksub1 (function_name p s 0) k0 e == e) -> from_functions p xs (as_functions p xs e) == e.
Proof.
  intros F. unfold from_functions, as_functions.
  set (S := map (fun s => (s, function_name p s 0)) ss).
  replace (map (fun s => (function_name p s 0, ksym s)) ss) with (map (fun st : string * string => (snd st, ksym (fst st))) S) by (unfold S; rewrite map_map; reflexivity).
  replace (map (fun s => (s, ksym (function_name p s 0))) ss) with (map (fun st : string * string => (fst st, ksym (snd st))) S) by (unfold S; rewrite map_map; reflexivity).
  assert (I : forall t, In t (map snd S) -> exists s, In s ss /\ t = fvar p s 0).
  { intros t Ht. unfold S in Ht. rewrite map_map in Ht. cbn [snd] in Ht. apply in_map_iff in Ht as (s & <- & Hs). exists s. split; [exact Hs|reflexivity]. }
  apply rename_back_any.
  - apply Permutation_refl.
  - unfold S. rewrite map_map. cbn [fst]. rewrite map_id. apply names_nodup, C.
  - unfold S. rewrite map_map. cbn [snd]. pose proof (functions_nodup p xs C) as ND. unfold function_names in ND. cbn [flat_map] in ND. apply NoDup_app_l in ND. exact ND.
  - intros t Ht Ht'. apply I in Ht as (s & Hs & ->). unfold S in Ht'. rewrite map_map in Ht'. cbn [fst] in Ht'. rewrite map_id in Ht'.
    apply (names_apart p xs C _ (fvar p s 0) Ht'); [|reflexivity]. apply in_functions. exists s, 0%nat. split; [exact Hs|]. split; [lia|reflexivity].
  - intros t Ht. apply I in Ht as (s & Hs & ->). apply F, Hs.
Qed.
End Curve.
