(** The covariant derivative of formulas. *)
From Coq Require Import Permutation Bool.
From Verif Require Import Alg Alg_P Arr Arr_P Spec UtilsM Utils_P Arr2_P Act_P RL_P Tensor_P TensorM WorldM SpecWorld CalcM SpecCalc Calc_P Calc2_P Trace_P CurvM SpecCurv SpecChange SpecForm SpecCov Curv_P CovId_P Along_P Label_P FormVal_P FormVal2_P FormRun2_P FormCov_P SpecLeib.
Local Open Scope K_scope.

Section Leib.
Context {A : AlgOps} {L : AlgLaws A} {DL : DiffLaws A}.
Add Ring Kring : kring (setoid keq_equiv kring_ext).
Variables (n : nat) (x : nat -> string) (g gi : nat -> nat -> K).
Hypothesis Hs : symmetric_fun n g.
Hypothesis Hinv : inverse_fun n g gi.
Notation G := (christoffel_of n x g gi).

Section Labelled.
Context {X : Type} (eqb : X -> X -> bool) (eqb_spec : forall a b, reflect (a = b) (eqb a b)).
Notation up := (upd eqb).
Notation pureX := (pure (X := X)).
Implicit Types (F P Q : (X -> nat) -> K) (h : X -> nat).

Definition cvl (Ls : list X) F (k : nat) h : K :=
  kdiff (x k) (F h) - lsum Ls (fun y => nsum n (fun d => G d k (h y) * F (up h y d))).

Lemma cvl_perm Ls Ls' F k h : Permutation Ls Ls' -> cvl Ls F k h == cvl Ls' F k h.
Proof. intros H. unfold cvl. rewrite (lsum_perm Ls Ls') by exact H. reflexivity. Qed.
Lemma cvl_ext Ls F P k h : ok n h -> (forall h, ok n h -> F h == P h) -> cvl Ls F k h == cvl Ls P k h.
Proof.
  intros Oh E. unfold cvl. rewrite (kdiff_proper _ _ _ (E h Oh)). apply ksub_proper; [reflexivity|]. apply lsum_ext. intros y _. apply nsum_ext. intros d Hd.
  rewrite E; [reflexivity|apply (ok_up n eqb); assumption].
Qed.
Lemma cvl_dep (S : X -> Prop) Ls F k : (forall y, In y Ls -> S y) -> dep S F -> dep S (cvl Ls F k).
Proof.
  intros HL D f h E. unfold cvl. rewrite (kdiff_proper _ _ _ (D f h E)). apply ksub_proper; [reflexivity|]. apply lsum_ext. intros y Hy. apply nsum_ext. intros d _.
  rewrite (E y (HL y Hy)). apply kmul_proper; [reflexivity|]. apply D. intros z Hz. unfold upd. destruct (eqb z y); auto.
Qed.
Lemma cvl_pure Ls F k : pureX F -> pureX (cvl Ls F k).
Proof. apply cvl_dep. auto. Qed.
Lemma cvl_add Ls F P k h : cvl Ls (fun h => F h + P h) k h == cvl Ls F k h + cvl Ls P k h.
Proof.
  unfold cvl. rewrite kdiff_add.
  rewrite (lsum_ext Ls _ (fun y => nsum n (fun d => G d k (h y) * F (up h y d)) + nsum n (fun d => G d k (h y) * P (up h y d)))), lsum_add; [ring|].
  intros y _. rewrite <- nsum_add. apply nsum_ext. intros d _. ring.
Qed.
Lemma cvl_scale Ls c F k h : cvl Ls (fun h => c * F h) k h == kdiff (x k) c * F h + c * cvl Ls F k h.
Proof.
  unfold cvl. rewrite kdiff_mul.
  rewrite (lsum_ext Ls _ (fun y => c * nsum n (fun d => G d k (h y) * F (up h y d)))), lsum_scale; [ring|].
  intros y _. rewrite <- nsum_scale. apply nsum_ext. intros d _. ring.
Qed.
Lemma cvl_opp Ls F k h : cvl Ls (fun h => - F h) k h == - cvl Ls F k h.
Proof.
  unfold cvl. rewrite kdiff_opp.
  rewrite (lsum_ext Ls _ (fun y => - nsum n (fun d => G d k (h y) * F (up h y d)))).
  - rewrite (lsum_ext Ls _ (fun y => (- k1) * nsum n (fun d => G d k (h y) * F (up h y d)))), lsum_scale by (intros y _; ring). ring.
  - intros y _. rewrite <- nsum_opp. apply nsum_ext. intros d _. ring.
Qed.
Lemma cvl_sub Ls F P k h : cvl Ls (fun h => F h - P h) k h == cvl Ls F k h - cvl Ls P k h.
Proof.
  transitivity (cvl Ls (fun h => F h + - P h) k h).
  - unfold cvl. rewrite (kdiff_proper (x k) (F h - P h) (F h + - P h)) by ring. apply ksub_proper; [reflexivity|]. apply lsum_ext. intros y _. apply nsum_ext. intros d _. ring.
  - rewrite (cvl_add Ls F (fun h => - P h)), cvl_opp. ring.
Qed.
(** One tensor *)
Lemma up_map (l : list X) h j d : NoDup l -> (j < length l)%nat -> forall z, map (up h (nth j l z) d) l = replaced j d (map h l).
Proof.
  intros Nd Hj z. unfold replaced. revert j Hj. induction Nd as [|y l Ny Nd IH]; intros j Hj; [cbn in Hj; lia|]. destruct j as [|j]; cbn [nth map firstn skipn app].
  - rewrite (up_same eqb eqb_spec). f_equal. apply map_ext_in. intros w Hw. apply (up_other eqb eqb_spec). congruence.
  - cbn [length] in Hj. assert (Hj' : (j < length l)%nat) by lia. rewrite (up_other eqb eqb_spec) by (intros E; apply Ny; rewrite E; apply nth_In, Hj'). f_equal. apply IH, Hj'.
Qed.
Lemma lsum_nth (l : list X) z (f : X -> K) : lsum l f == nsum (length l) (fun j => f (nth j l z)).
Proof.
  unfold nsum. rewrite <- (lsum_map (fun j => nth j l z) (seq 0 (length l)) f). replace (map (fun j => nth j l z) (seq 0 (length l))) with l; [reflexivity|].
  clear. induction l as [|y l IH]; [reflexivity|]. cbn [length seq map nth]. f_equal. rewrite <- seq_shift, map_map. exact IH.
Qed.
Lemma nth_minus r j : nth j (repeat (-1)%Z r) 0%Z = (if (j <? r)%nat then (-1)%Z else 0%Z).
Proof. revert j. induction r as [|r IH]; intros [|j]; cbn [repeat nth]; try reflexivity. rewrite IH. reflexivity. Qed.
Lemma cvl_tensor Ls (T : list nat -> K) k h : NoDup Ls ->
  cvl Ls (fun h => T (map h Ls)) k h == covariant_of n x G (repeat (-1)%Z (length Ls)) T k (map h Ls).
Proof.
  intros Nd. unfold cvl, covariant_of. rewrite repeat_length. destruct Ls as [|z Ls']; [cbn [length lsum map]; unfold nsum; cbn [seq lsum]; ring|].
  set (Ls := z :: Ls') in *. rewrite (lsum_nth Ls z).
  transitivity (kdiff (x k) (T (map h Ls)) + nsum (length Ls) (fun j => - nsum n (fun d => G d k (h (nth j Ls z)) * T (map (up h (nth j Ls z) d) Ls)))).
  { rewrite nsum_opp. ring. }
  apply kadd_proper; [reflexivity|]. apply nsum_ext. intros j Hj. rewrite nth_minus. rewrite (proj2 (Nat.ltb_lt j (length Ls)) Hj). cbn [Z.eqb Pos.eqb].
  apply kopp_proper. apply nsum_ext. intros d _. rewrite (up_map Ls h j d Nd Hj z). rewrite (nth_map_lt h Ls j 0%nat z Hj). reflexivity.
Qed.
(** Contraction with the inverse metric *)
Lemma cvl_step a b P Ls k h : (k < n)%nat -> pureX P -> a <> b -> ~ In a Ls -> ~ In b Ls ->
  cvl Ls (fun h => nsum n (fun p => nsum n (fun q => gi p q * P (up (up h a p) b q)))) k h ==
  nsum n (fun p => nsum n (fun q => gi p q * cvl (a :: b :: Ls) P k (up (up h a p) b q))).
Proof.
  intros Hk Pu Nab Na Nb.
  set (V := fun p q => P (up (up h a p) b q)).
  assert (EL : forall y d p q, In y Ls -> P (up (up (up h y d) a p) b q) == P (up (up (up h a p) b q) y d)).
  { intros y d p q Hy. apply Pu. intros z _. unfold upd. destruct (eqb_spec z b), (eqb_spec z a), (eqb_spec z y); subst; try reflexivity; contradiction. }
  assert (E1 : forall p q d, P (up (up (up h a p) b q) a d) == V d q).
  { intros p q d. apply Pu. intros z _. unfold upd. destruct (eqb_spec z b), (eqb_spec z a); subst; try reflexivity; congruence. }
  assert (E2 : forall p q d, P (up (up (up h a p) b q) b d) == V p d).
  { intros p q d. apply Pu. intros z _. unfold upd. destruct (eqb_spec z b); reflexivity. }
  transitivity (nsum n (fun p => nsum n (fun q => kdiff (x k) (gi p q) * V p q)) + nsum n (fun p => nsum n (fun q => gi p q * kdiff (x k) (V p q)))
    - nsum n (fun p => nsum n (fun q => gi p q * lsum Ls (fun y => nsum n (fun d => G d k (h y) * P (up (up (up h a p) b q) y d)))))).
  { unfold cvl. apply ksub_proper.
    - rewrite kdiff_nsum, <- nsum_add. apply nsum_ext. intros p _. rewrite kdiff_nsum, <- nsum_add. apply nsum_ext. intros q _. apply kdiff_mul.
    - transitivity (lsum Ls (fun y => nsum n (fun p => nsum n (fun q => gi p q * nsum n (fun d => G d k (h y) * P (up (up (up h a p) b q) y d)))))).
      + apply lsum_ext. intros y Hy.
        transitivity (nsum n (fun d => nsum n (fun p => nsum n (fun q => G d k (h y) * (gi p q * P (up (up (up h a p) b q) y d)))))).
        { apply nsum_ext. intros d _. rewrite <- nsum_scale. apply nsum_ext. intros p _. rewrite <- nsum_scale. apply nsum_ext. intros q _. rewrite (EL y d p q Hy). reflexivity. }
        rewrite nsum_swap. apply nsum_ext. intros p _. rewrite nsum_swap. apply nsum_ext. intros q _. rewrite <- nsum_scale. apply nsum_ext. intros d _. ring.
      + unfold nsum at 1. rewrite lsum_swap. apply lsum_ext. intros p _. unfold nsum at 1. rewrite lsum_swap. apply lsum_ext. intros q _. rewrite lsum_scale. reflexivity. }
  assert (ED : nsum n (fun p => nsum n (fun q => kdiff (x k) (gi p q) * V p q)) ==
    - nsum n (fun p => nsum n (fun q => gi p q * nsum n (fun d => G d k p * V d q))) - nsum n (fun p => nsum n (fun q => gi p q * nsum n (fun d => G d k q * V p d)))).
  { transitivity (- nsum n (fun p => nsum n (fun q => nsum n (fun s => G p k s * gi s q * V p q))) - nsum n (fun p => nsum n (fun q => nsum n (fun s => G q k s * gi p s * V p q)))).
    - rewrite <- nsum_opp, <- nsum_sub. apply nsum_ext. intros p Hp. rewrite <- nsum_opp, <- nsum_sub. apply nsum_ext. intros q Hq.
      rewrite (CovId_P.dgi n x g gi Hs Hinv k p q) by assumption. rewrite !nsum_scale_r. ring.
    - apply ksub_proper; [apply kopp_proper|].
      + transitivity (nsum n (fun q => nsum n (fun p => nsum n (fun s => G p k s * gi s q * V p q)))); [apply nsum_swap|].
        transitivity (nsum n (fun q => nsum n (fun p => gi p q * nsum n (fun d => G d k p * V d q)))); [|apply nsum_swap].
        apply nsum_ext. intros q _. rewrite nsum_swap. apply nsum_ext. intros s _. rewrite <- nsum_scale. apply nsum_ext. intros p _. ring.
      + apply nsum_ext. intros p _. rewrite nsum_swap. apply nsum_ext. intros s _. rewrite <- nsum_scale. apply nsum_ext. intros q _. ring. }
  rewrite ED. symmetry.
  transitivity (nsum n (fun p => nsum n (fun q => - (gi p q * nsum n (fun d => G d k p * V d q)) - gi p q * nsum n (fun d => G d k q * V p d) + gi p q * kdiff (x k) (V p q)
     - gi p q * lsum Ls (fun y => nsum n (fun d => G d k (h y) * P (up (up (up h a p) b q) y d)))))).
  { apply nsum_ext. intros p _. apply nsum_ext. intros q _. unfold cvl. cbn [lsum]. fold (V p q).
    rewrite (up_other eqb eqb_spec _ b q a Nab), (up_same eqb eqb_spec _ a p), (up_same eqb eqb_spec _ b q).
    rewrite (nsum_ext n (fun d => G d k p * P (up (up (up h a p) b q) a d)) (fun d => G d k p * V d q)) by (intros d _; rewrite E1; reflexivity).
    rewrite (nsum_ext n (fun d => G d k q * P (up (up (up h a p) b q) b d)) (fun d => G d k q * V p d)) by (intros d _; rewrite E2; reflexivity).
    rewrite (lsum_ext Ls (fun y => nsum n (fun d => G d k (up (up h a p) b q y) * P (up (up (up h a p) b q) y d))) (fun y => nsum n (fun d => G d k (h y) * P (up (up (up h a p) b q) y d)))); [ring|].
    intros y Hy. rewrite !(up_other eqb eqb_spec) by (intros ->; contradiction). reflexivity. }
  rewrite <- nsum_opp, <- !nsum_sub, <- nsum_add, <- nsum_sub. apply nsum_ext. intros p _.
  rewrite <- nsum_opp, <- !nsum_sub, <- nsum_add, <- nsum_sub. apply nsum_ext. intros q _. ring.
Qed.
Lemma cvl_con C F Ls k h : (k < n)%nat -> ok n h -> pureX F -> NoDup (ends C ++ Ls) -> (forall e, In e C -> snd e = gi) ->
  cvl Ls (con n eqb C F) k h == con n eqb C (cvl (ends C ++ Ls) F k) h.
Proof.
  intros Hk Oh Pu. revert Ls h Oh. induction C as [|[[a b] N] C IH]; intros Ls h Oh Nd HN; [reflexivity|].
  assert (EN : N = gi) by exact (HN _ (or_introl eq_refl)). subst N.
  cbn [ends flat_map fst snd app] in *. fold (ends C) in *. inversion Nd as [|? ? Na Nd1]; subst. inversion Nd1 as [|? ? Nb Nd2]; subst.
  cbn [con]. rewrite cvl_step; [|exact Hk|apply (con_pure n eqb eqb_spec), Pu| | |].
  - apply nsum_ext. intros p Hp. apply nsum_ext. intros q Hq. apply kmul_proper; [reflexivity|].
    assert (O' : ok n (up (up h a p) b q)) by (apply (ok_up n eqb); [apply (ok_up n eqb)|]; assumption).
    rewrite IH; [|exact O'| |intros e He; apply HN; right; exact He].
    + apply (con_ext n eqb eqb_spec); [exact O'|]. intros h' _ _. apply cvl_perm. change (a :: b :: ends C ++ Ls) with ([a; b] ++ ends C ++ Ls). change (a :: b :: Ls) with ([a; b] ++ Ls). rewrite !app_assoc. apply Permutation_app_tail, Permutation_app_comm.
    + apply (Permutation_NoDup (l := a :: b :: ends C ++ Ls)); [|exact Nd]. change (a :: b :: ends C ++ Ls) with ([a; b] ++ ends C ++ Ls). change (a :: b :: Ls) with ([a; b] ++ Ls).
      rewrite !app_assoc. apply Permutation_app_tail, Permutation_app_comm.
  - intros ->. apply Na. left; reflexivity.
  - intros H. apply Na. right. apply in_or_app. auto.
  - intros H. apply Nb. apply in_or_app. auto.
Qed.
End Labelled.

(** Products *)
Lemma cvl_product s1 s2 (V1 V2 : (string -> nat) -> K) k (h : lab -> nat) : pure V1 -> pure V2 ->
  cvl leqb (map (fun y => (false, y)) s1 ++ map (fun y => (true, y)) s2) (fun h => V1 (part false h) * V2 (part true h)) k h ==
  cvl String.eqb s1 V1 k (part false h) * V2 (part true h) + V1 (part false h) * cvl String.eqb s2 V2 k (part true h).
Proof.
  intros P1 P2. unfold cvl. rewrite kdiff_mul, lsum_app, !lsum_map.
  rewrite (lsum_ext s1 _ (fun y => nsum n (fun d => G d k (part false h y) * V1 (upd String.eqb (part false h) y d)) * V2 (part true h))).
  2:{ intros y _. rewrite <- nsum_scale_r. apply nsum_ext. intros d _.
      rewrite (P1 (part false (upd leqb h (false, y) d)) (upd String.eqb (part false h) y d)), (P2 (part true (upd leqb h (false, y) d)) (part true h)).
      - unfold part. ring.
      - intros z _. reflexivity.
      - intros z _. unfold part, upd, leqb. cbn [fst snd Bool.eqb andb]. reflexivity. }
  rewrite (lsum_ext s2 _ (fun y => V1 (part false h) * nsum n (fun d => G d k (part true h y) * V2 (upd String.eqb (part true h) y d)))).
  2:{ intros y _. rewrite <- nsum_scale. apply nsum_ext. intros d _.
      rewrite (P2 (part true (upd leqb h (true, y) d)) (upd String.eqb (part true h) y d)), (P1 (part false (upd leqb h (true, y) d)) (part false h)).
      - unfold part. ring.
      - intros z _. reflexivity.
      - intros z _. unfold part, upd, leqb. cbn [fst snd Bool.eqb andb]. reflexivity. }
  rewrite lsum_scale, lsum_scale_r. ring.
Qed.
(** Back to one assignment *)
Lemma cvl_join (rest : list lab) (F : (lab -> nat) -> K) k f : (forall r, In r rest -> dep (fun a => a <> (negb (fst r), snd r)) F) ->
  cvl String.eqb (map snd rest) (fun f => F (join f f)) k f == cvl leqb rest F k (join f f).
Proof.
  intros HF. unfold cvl. apply ksub_proper; [reflexivity|]. rewrite lsum_map. apply lsum_ext. intros [b y] Hr. cbn [snd]. apply nsum_ext. intros d _.
  replace (join f f (b, y)) with (f y) by (unfold join; cbn; destruct b; reflexivity). apply kmul_proper; [reflexivity|].
  apply (HF (b, y) Hr). intros [b' z] Ha. cbn [fst snd] in Ha. unfold join, upd, leqb. cbn [fst snd]. destruct (String.eqb_spec z y) as [->|N].
  - destruct b, b'; cbn [Bool.eqb andb negb] in *; congruence.
  - destruct b, b'; reflexivity.
Qed.
End Leib.

Lemma contracted_okext {A : AlgOps} {L : AlgLaws A} n (N : nat -> nat -> K) C F F' f1 f2 : ok n f1 -> ok n f2 -> (forall f1 f2, ok n f1 -> ok n f2 -> F f1 f2 == F' f1 f2) ->
  contracted n N C F f1 f2 == contracted n N C F' f1 f2.
Proof.
  intros O1 O2 H. revert f1 f2 O1 O2. induction C as [|y C IH]; intros f1 f2 O1 O2; cbn [contracted]; [apply H; assumption|]. apply nsum_ext. intros k Hk. apply nsum_ext. intros l Hl.
  rewrite IH; [reflexivity| |]; apply (ok_up n String.eqb); assumption.
Qed.

(** Formulas *)
Section LeibForm.
Context {A : AlgOps} {L : AlgLaws A} {DL : DiffLaws A}.
Add Ring Kring : kring (setoid keq_equiv kring_ext).
Variables (n : nat) (xs : list string) (g gi : nat -> nat -> K) (conf : oid -> list Z) (T : oid -> list nat -> K).
Hypothesis Hs : symmetric_fun n g.
Hypothesis Hinv : inverse_fun n g gi.
Notation val := (value conf n xs g gi T).
Notation der := (nabla_value conf n xs g gi T).
Notation cvs := (cvl n (cx xs) g gi String.eqb).
Notation cv2 := (cvl n (cx xs) g gi leqb).
Notation con2 := (con n leqb).

Lemma map_snd_lab b (s : list string) : map snd (map (fun y => (b, y)) s : list lab) = s.
Proof. rewrite map_map. apply map_id. Qed.
Lemma trace_perm s : (forall x, count String.eqb x s <= 2)%nat -> Permutation (both (repeated s) ++ map (fun y => (false, y)) (without s (repeated s))) (labels s).
Proof.
  intros Hc. apply NoDup_Permutation.
  - apply nodup_app; [apply both_nodup, repeated_nodup| |].
    + apply FinFun.Injective_map_NoDup; [intros u v E; congruence|apply without_once; [exact Hc|apply repeated_spec]].
    + intros [b y] H H'. apply both_spec in H. apply in_map_iff in H' as (z & E & H'). injection E as <- ->. apply without_in in H'. tauto.
  - apply labels_nodup, Hc.
  - intros [b y]. rewrite (in_labels s b y Hc), in_app_iff, both_spec, in_map_iff. split.
    + intros [H|(z & E & H)]; [destruct b; [apply repeated_spec, H|]|].
      * apply repeated_spec in H. apply count_in. lia.
      * injection E as <- ->. apply without_in in H. tauto.
    + destruct b; [intros H; left; apply repeated_spec, H|]. intros H. destruct (in_dec string_dec y (repeated s)) as [Hr|Hr]; [auto|right]. exists y. split; [reflexivity|apply without_in; auto].
Qed.
Lemma product_perm s1 s2 : NoDup s1 -> NoDup s2 ->
  Permutation (both (common s1 s2) ++ map (fun y => (false, y)) (without s1 s2) ++ map (fun y => (true, y)) (without s2 s1))
    (map (fun y => (false, y)) s1 ++ map (fun y => (true, y)) s2).
Proof.
  intros N1 N2. assert (Inj : forall b s, NoDup s -> NoDup (map (fun y : string => (b, y)) s : list lab)).
  { intros b s N. apply FinFun.Injective_map_NoDup; [intros u v E; congruence|exact N]. }
  assert (Hin : forall (b b' : bool) (y : string) s, In (b, y) (map (fun y => (b', y)) s) <-> b = b' /\ In y s).
  { intros b b' y s. rewrite in_map_iff. split; [intros (z & E & H); injection E as -> ->; auto|intros [-> H]; eauto]. }
  apply NoDup_Permutation.
  - apply nodup_app; [apply both_nodup, common_nodup, N1|apply nodup_app|].
    + apply Inj, without_nodup, N1.
    + apply Inj, without_nodup, N2.
    + intros [b y] H H'. apply Hin in H, H'. destruct H, H'. congruence.
    + intros [b y] H H'. apply both_spec, common_in in H. apply in_app_iff in H' as [H'|H']; apply Hin in H' as [_ H']; apply without_in in H'; tauto.
  - apply nodup_app; [apply Inj, N1|apply Inj, N2|]. intros [b y] H H'. apply Hin in H, H'. destruct H, H'. congruence.
  - intros [b y]. rewrite !in_app_iff, both_spec, !Hin, common_in, !without_in. destruct (in_dec string_dec y s1), (in_dec string_dec y s2), b; intuition congruence.
Qed.

Theorem derived_value p : well_formed conf p -> algebraic p -> forall k f, (k < n)%nat -> ok n f -> cvs (free_syms p) (val p) k f == der p k f.
Proof.
  induction p as [t s|x IHx y IHy|x IHx y IHy|x IHx|a x IHx|a x IHx|x IHx y IHy|a x IHx]; cbn [well_formed algebraic]; intros W Al k f Hk Of.
  - destruct W as [Hl Hc]. cbn [free_syms nabla_value]. set (Fh := fun h : lab -> nat => T t (map h (labels s))). set (D := repeated s).
    set (rest := map (fun y => (false, y)) (without s D) : list lab).
    assert (PF : pure Fh). { intros h h' E. unfold Fh. rewrite (map_ext h h'); [reflexivity|]. intros u. apply E, I. }
    transitivity (cvs (map snd rest) (fun f => con2 (twins (fun _ => gi) D) Fh (join f f)) k f).
    { unfold rest. rewrite map_snd_lab. apply cvl_ext; [exact Of|]. intros h Oh. cbn [value]. apply (trace_con n gi (T t) s h Oh). }
    rewrite cvl_join.
    2:{ intros r Hr. unfold rest in Hr. apply in_map_iff in Hr as (z & <- & Hz). cbn [fst snd negb]. apply (con_dep n leqb leqb_spec). rewrite ends_twins.
        intros h h' E. unfold Fh. rewrite (map_ext_in h h'); [reflexivity|]. intros [b u] Hu. apply E. destruct (in_dec string_dec u D) as [Hd|Hd]; [right; apply both_spec, Hd|left].
        intros Eu. injection Eu as -> ->. apply (in_labels s true z Hc), repeated_spec in Hu. contradiction. }
    assert (Pm := trace_perm s Hc). fold D rest in Pm.
    assert (Oj := ok_join n f f Of Of).
    rewrite cvl_con; [|exact Hs|exact Hinv|exact leqb_spec|exact Hk|exact Oj|exact PF|rewrite ends_twins; apply (Permutation_NoDup (Permutation_sym Pm)), labels_nodup, Hc|].
    2:{ intros e He. unfold twins in He. apply in_map_iff in He as (z & <- & _). reflexivity. }
    rewrite ends_twins. cbn [value]. rewrite trace_con by exact Of. apply (con_ext n leqb leqb_spec); [exact Oj|]. intros h Oh _.
    rewrite (cvl_perm n (cx xs) g gi leqb _ _ Fh k h Pm). unfold Fh. rewrite (cvl_tensor n (cx xs) g gi leqb leqb_spec (labels s) (T t) k h) by (apply labels_nodup, Hc).
    unfold nabla_tensor. rewrite labels_length, Hl. reflexivity.
  - destruct W as (Wx & Wy & Pm). destruct Al as [Ax Ay]. cbn [free_syms nabla_value value]. change (cvs (free_syms x) (fun f => val x f + val y f) k f == der x k f + der y k f).
    rewrite (cvl_add n (cx xs) g gi String.eqb (free_syms x) (val x) (val y)). rewrite (IHx Wx Ax k f Hk Of), (cvl_perm n (cx xs) g gi String.eqb _ _ (val y) k f Pm), (IHy Wy Ay k f Hk Of). reflexivity.
  - destruct W as (Wx & Wy & Pm). destruct Al as [Ax Ay]. cbn [free_syms nabla_value value]. change (cvs (free_syms x) (fun f => val x f - val y f) k f == der x k f - der y k f).
    rewrite (cvl_sub n (cx xs) g gi String.eqb (free_syms x) (val x) (val y)). rewrite (IHx Wx Ax k f Hk Of), (cvl_perm n (cx xs) g gi String.eqb _ _ (val y) k f Pm), (IHy Wy Ay k f Hk Of). reflexivity.
  - cbn [free_syms nabla_value value]. change (cvs (free_syms x) (fun f => - val x f) k f == - der x k f). rewrite (cvl_opp n (cx xs) g gi String.eqb (free_syms x) (val x)), (IHx W Al k f Hk Of). reflexivity.
  - cbn [free_syms nabla_value value]. change (cvs (free_syms x) (fun f => a * val x f) k f == kdiff (cx xs k) a * val x f + a * der x k f).
    rewrite (cvl_scale n (cx xs) g gi String.eqb (free_syms x) a (val x)), (IHx W Al k f Hk Of). reflexivity.
  - cbn [free_syms nabla_value value]. change (cvs (free_syms x) (fun f => a * val x f) k f == kdiff (cx xs k) a * val x f + a * der x k f).
    rewrite (cvl_scale n (cx xs) g gi String.eqb (free_syms x) a (val x)), (IHx W Al k f Hk Of). reflexivity.
  - destruct W as [Wx Wy]. destruct Al as [Ax Ay]. cbn [free_syms nabla_value]. set (sx := free_syms x) in *. set (sy := free_syms y) in *.
    assert (Nx := free_nodup n conf T x Wx). assert (Ny := free_nodup n conf T y Wy). fold sx in Nx. fold sy in Ny.
    assert (Dx := value_dep n g gi conf xs T x Wx). assert (Dy := value_dep n g gi conf xs T y Wy). fold sx in Dx. fold sy in Dy.
    set (Fh := fun h : lab -> nat => val x (part false h) * val y (part true h)). set (D := common sx sy).
    set (rest := map (fun y => (false, y)) (without sx sy) ++ map (fun y => (true, y)) (without sy sx) : list lab).
    assert (DF : dep (fun a : lab => if fst a then In (snd a) sy else In (snd a) sx) Fh).
    { intros h h' E. unfold Fh. rewrite (Dx (part false h) (part false h')), (Dy (part true h) (part true h')); [reflexivity| |]; intros z Hz; apply E; exact Hz. }
    assert (PF : pure Fh) by exact (dep_pure _ _ DF).
    transitivity (cvs (map snd rest) (fun f => con2 (twins (fun _ => gi) D) Fh (join f f)) k f).
    { unfold rest. rewrite map_app, !map_snd_lab. apply cvl_ext; [exact Of|]. intros h Oh. cbn [value]. apply (contracted_con n gi D (fun f1 f2 => val x f1 * val y f2) h h PF). }
    rewrite cvl_join.
    2:{ intros [b z] Hr. apply (con_dep n leqb leqb_spec). rewrite ends_twins. eapply dep_weaken; [|exact DF]. intros [b' u] Hu. cbn [fst snd] in *.
        destruct (in_dec string_dec u D) as [Hd|Hd]; [right; apply both_spec, Hd|left]. intros Eu. injection Eu as -> ->. apply Hd.
        unfold rest in Hr. apply in_app_iff in Hr as [Hr|Hr]; apply in_map_iff in Hr as (v & Ev & Hv); injection Ev as <- ->; apply without_in in Hv; cbn in Hu; exfalso; tauto. }
    assert (Pm := product_perm sx sy Nx Ny). fold D rest in Pm.
    assert (Oj := ok_join n f f Of Of).
    rewrite cvl_con; [|exact Hs|exact Hinv|exact leqb_spec|exact Hk|exact Oj|exact PF| |].
    2:{ rewrite ends_twins. apply (Permutation_NoDup (Permutation_sym Pm)). apply nodup_app.
        - apply FinFun.Injective_map_NoDup; [intros u v E; congruence|exact Nx].
        - apply FinFun.Injective_map_NoDup; [intros u v E; congruence|exact Ny].
        - intros [b z] H H'. apply in_map_iff in H as (u & E & _). apply in_map_iff in H' as (v & E' & _). congruence. }
    2:{ intros e He. unfold twins in He. apply in_map_iff in He as (z & <- & _). reflexivity. }
    rewrite ends_twins. symmetry.
    assert (Ec : forall h : lab -> nat, ok n h -> cv2 (both D ++ rest) Fh k h == der x k (part false h) * val y (part true h) + val x (part false h) * der y k (part true h)).
    { intros h Oh. rewrite (cvl_perm n (cx xs) g gi leqb _ _ Fh k h Pm). unfold Fh. rewrite (cvl_product n (cx xs) g gi sx sy (val x) (val y) k h (dep_pure _ _ Dx) (dep_pure _ _ Dy)).
      rewrite (IHx Wx Ax k (part false h) Hk (fun z => Oh (false, z))), (IHy Wy Ay k (part true h) Hk (fun z => Oh (true, z))). reflexivity. }
    transitivity (contracted n gi D (fun f1 f2 => cvs sx (val x) k f1 * val y f2 + val x f1 * cvs sy (val y) k f2) f f).
    { apply contracted_okext; [exact Of|exact Of|]. intros f1 f2 O1 O2. rewrite (IHx Wx Ax k f1 Hk O1), (IHy Wy Ay k f2 Hk O2). reflexivity. }
    rewrite contracted_con.
    2:{ intros h h' E. assert (E1 : forall z, part false h z = part false h' z) by (intros z; apply E, I). assert (E2 : forall z, part true h z = part true h' z) by (intros z; apply E, I).
        rewrite (dep_pure _ _ Dx (part false h) (part false h')), (dep_pure _ _ Dy (part true h) (part true h')) by auto.
        rewrite (cvl_pure n (cx xs) g gi String.eqb sx (val x) k (dep_pure _ _ Dx) (part false h) (part false h')) by auto.
        rewrite (cvl_pure n (cx xs) g gi String.eqb sy (val y) k (dep_pure _ _ Dy) (part true h) (part true h')) by auto. reflexivity. }
    apply (con_ext n leqb leqb_spec); [exact Oj|]. intros h Oh _.
    rewrite (cvl_perm n (cx xs) g gi leqb _ _ Fh k h Pm). unfold Fh. rewrite (cvl_product n (cx xs) g gi sx sy (val x) (val y) k h (dep_pure _ _ Dx) (dep_pure _ _ Dy)). reflexivity.
  - destruct Al.
Qed.
End LeibForm.
