(** Sequential and simultaneous substitution. *)
From Verif Require Import Alg Alg_P Arr Arr_P Arr2_P UtilsM Utils_P Spec Act_P TensorM RL_P Jac_P Tensor_P Jacobian_P Chr_P.
Local Open Scope K_scope.

Section SubsP.
Context {A : AlgOps} {L : AlgLaws A} {SL : SubsLaws A}.
Add Ring Kring : kring (setoid keq_equiv kring_ext).

(** A fresh symbol passes through a renaming. *)
Lemma rename_pass y r X e :
  ~ In y (map fst X) -> (forall p, In p X -> exists z, snd p = ksym z /\ z <> y) ->
  (forall p, In p X -> forall q, ksub1 (fst p) q r == r) ->
  ksub1 y r (subs_seq X e) == subs_seq X (ksub1 y r e).
Proof.
  unfold subs_seq. revert e; induction X as [|[x z] X IH]; intros e Hy Hz Hr; [reflexivity|].
  cbn [fold_left fst snd]. rewrite IH.
  - apply (hom_proper _ (hom_subs_seq X)).
    rewrite ksub1_swap.
    + apply ksub1_proper; [|reflexivity]. destruct (Hz (x, z) (or_introl eq_refl)) as (z' & Ez & Hne). cbn in Ez. rewrite Ez.
      apply ksub1_other. congruence.
    + intros ->. apply Hy. left; reflexivity.
    + apply (Hr (x, z) (or_introl eq_refl)).
  - intros H. apply Hy. right; exact H.
  - intros p Hp. apply Hz. right; exact Hp.
  - intros p Hp. apply Hr. right; exact Hp.
Qed.

Lemma free0_sub x r y e : x <> y -> (forall q, ksub1 y q r == r) -> ksub1 y k0 e == e ->
  ksub1 y k0 (ksub1 x r e) == ksub1 x r e.
Proof.
  intros Hne Hr He.
  assert (H := ksub1_swap x y r k0 e Hne Hr). rewrite (ksub1_proper x r r (reflexivity r) _ _ He) in H.
  symmetry. etransitivity; [exact H|]. apply ksub1_proper; [apply ksub1_0|reflexivity].
Qed.

Lemma subs_seq_sim rules : forall fresh e,
  no_later rules -> NoDup (map fst rules) ->
  length fresh = length rules -> NoDup fresh ->
  (forall y, In y fresh -> ~ In y (map fst rules) /\ ksub1 y k0 e == e /\
     Forall (fun r => forall q, ksub1 y q (snd r) == snd r) rules) ->
  subs_seq rules e == subs_sim rules fresh e.
Proof.
  induction rules as [|[x r] R IH]; intros [|y ys] e Hn Hd Hl Hf HF; cbn in Hl; try discriminate.
  { reflexivity. }
  cbn [no_later] in Hn. destruct Hn as [Hn1 Hn2]. cbn [map fst] in Hd. inversion Hd as [|? ? Hx Hd']; subst.
  inversion Hf as [|? ? Hy Hf']; subst.
  destruct (HF y (or_introl eq_refl)) as (Hy1 & Hy2 & Hy3). cbn [map fst] in Hy1.
  unfold subs_sim. cbn [map combine fst snd].
  change (subs_seq ((x, r) :: R) e) with (subs_seq R (ksub1 x r e)).
  change (subs_seq ((x, ksym y) :: combine (map fst R) (map ksym ys)) e)
    with (subs_seq (combine (map fst R) (map ksym ys)) (ksub1 x (ksym y) e)).
  change (subs_seq ((y, r) :: combine ys (map snd R)) (subs_seq (combine (map fst R) (map ksym ys)) (ksub1 x (ksym y) e)))
    with (subs_seq (combine ys (map snd R)) (ksub1 y r (subs_seq (combine (map fst R) (map ksym ys)) (ksub1 x (ksym y) e)))).
  assert (P : ksub1 y r (subs_seq (combine (map fst R) (map ksym ys)) (ksub1 x (ksym y) e))
           == subs_seq (combine (map fst R) (map ksym ys)) (ksub1 x r e)).
  { rewrite rename_pass.
    - apply (hom_proper _ (hom_subs_seq _)). apply ksub1_rename; [intros ->; apply Hy1; left; reflexivity|exact Hy2].
    - intros H. apply Hy1. right. apply in_map_iff in H as ([a b] & E & H). cbn in E; subst a. apply in_combine_l in H. exact H.
    - intros [a b] H. apply in_combine_r in H. apply in_map_iff in H as (z & Ez & Hz). exists z. split; [symmetry; exact Ez|].
      intros ->. contradiction.
    - intros [a b] H. apply in_combine_l in H. apply in_map_iff in H as ([a' b'] & Ea & Ha). cbn in Ea; subst a'.
      rewrite Forall_forall in Hn1. apply (Hn1 (a, b') Ha). }
  rewrite (hom_proper _ (hom_subs_seq (combine ys (map snd R))) _ _ P).
  apply (IH ys (ksub1 x r e)); try assumption; [congruence|].
  intros z Hz. destruct (HF z (or_intror Hz)) as (Hz1 & Hz2 & Hz3). cbn [map fst] in Hz1.
  inversion Hz3 as [|? ? Hzr Hz3']; subst. cbn [snd] in Hzr.
  split; [intros H; apply Hz1; right; exact H|]. split; [|exact Hz3'].
  apply free0_sub; [intros ->; apply Hz1; left; reflexivity|exact Hzr|exact Hz2].
Qed.

Lemma subs_seq_simultaneous rules fresh e :
  no_later rules -> NoDup (map fst rules) -> fresh_for rules fresh e ->
  subs_seq rules e == subs_sim rules fresh e.
Proof.
  intros Hn Hd (Hl & Hf & HF). apply subs_seq_sim; try assumption.
  intros y Hy. destruct (HF y Hy) as (H1 & H2 & H3). auto.
Qed.

(** What simultaneous substitution does to symbols. *)
Lemma subs_seq_sym_other X s : ~ In s (map fst X) -> subs_seq X (ksym s) == ksym s.
Proof.
  unfold subs_seq. induction X as [|[x r] X IH]; intros H; cbn [fold_left fst snd]; [reflexivity|].
  transitivity (fold_left (fun y r0 => ksub1 (fst r0) (snd r0) y) X (ksym s)).
  - apply (hom_proper _ (hom_subs_seq X)). apply ksub1_other. intros ->. apply H. left; reflexivity.
  - apply IH. intros Hs. apply H. right; exact Hs.
Qed.

Lemma subs_seq_fix X e : (forall p, In p X -> ksub1 (fst p) (snd p) e == e) -> subs_seq X e == e.
Proof.
  unfold subs_seq. induction X as [|[x r] X IH]; intros H; cbn [fold_left fst snd]; [reflexivity|].
  transitivity (fold_left (fun y r0 => ksub1 (fst r0) (snd r0) y) X e).
  - apply (hom_proper _ (hom_subs_seq X)). apply (H (x, r)). left; reflexivity.
  - apply IH. intros p Hp. apply H. right; exact Hp.
Qed.

Lemma subs_seq_sym_at X1 x r X2 : ~ In x (map fst X1) -> subs_seq (X1 ++ (x, r) :: X2) (ksym x) == subs_seq X2 r.
Proof.
  intros H. unfold subs_seq. rewrite fold_left_app. cbn [fold_left fst snd].
  apply (hom_proper _ (hom_subs_seq X2)).
  transitivity (ksub1 x r (ksym x)); [|apply ksub1_same].
  apply ksub1_proper; [reflexivity|]. apply (subs_seq_sym_other X1 x H).
Qed.

Lemma combine_split {X Y} (l1 : list X) x l2 (m : list Y) :
  length m = length (l1 ++ x :: l2) ->
  exists m1 y m2, m = m1 ++ y :: m2 /\ length m1 = length l1 /\ length m2 = length l2 /\
    combine (l1 ++ x :: l2) m = combine l1 m1 ++ (x, y) :: combine l2 m2 /\
    combine m (l1 ++ x :: l2) = combine m1 l1 ++ (y, x) :: combine m2 l2.
Proof.
  revert m; induction l1 as [|a l1 IH]; intros [|y m] H; cbn in H; try discriminate.
  - exists [], y, m. cbn. repeat split; congruence.
  - destruct (IH m ltac:(congruence)) as (m1 & z & m2 & -> & H1 & H2 & E1 & E2).
    exists (y :: m1), z, m2. cbn. rewrite E1, E2. repeat split; congruence.
Qed.

Lemma subs_sim_sym rules fresh x r :
  NoDup (map fst rules) -> fresh_for rules fresh k0 -> In (x, r) rules -> subs_sim rules fresh (ksym x) == r.
Proof.
  intros Hd (Hl & Hf & HF) Hin. apply in_split in Hin as (R1 & R2 & ->).
  assert (Hl' : length fresh = length (map fst R1 ++ x :: map fst R2)) by (rewrite Hl, !app_length; cbn; rewrite !map_length; reflexivity).
  destruct (combine_split (map fst R1) x (map fst R2) fresh Hl') as (f1 & y & f2 & -> & L1 & L2 & _ & _).
  unfold subs_sim. rewrite !map_app. cbn [map fst snd].
  assert (C1 : combine (map fst R1 ++ x :: map fst R2) (map ksym f1 ++ ksym y :: map ksym f2)
            = combine (map fst R1) (map ksym f1) ++ (x, ksym y) :: combine (map fst R2) (map ksym f2)).
  { rewrite map_length in L1. clear - L1. revert f1 L1. induction R1 as [|a R1 IH]; intros [|b f1] H; cbn in H; try discriminate; [reflexivity|].
    cbn. rewrite IH by congruence. reflexivity. }
  assert (C2 : combine (f1 ++ y :: f2) (map snd R1 ++ r :: map snd R2) = combine f1 (map snd R1) ++ (y, r) :: combine f2 (map snd R2)).
  { rewrite map_length in L1. clear - L1. revert f1 L1. induction R1 as [|a R1 IH]; intros [|b f1] H; cbn in H; try discriminate; [reflexivity|].
    cbn. rewrite IH by congruence. reflexivity. }
  rewrite C1, C2. rewrite map_app in Hd, HF. cbn [map fst] in Hd, HF.
  assert (Hx1 : ~ In x (map fst (combine (map fst R1) (map ksym f1)))).
  { intros H. apply in_map_iff in H as ([a b] & Ea & Ha). cbn in Ea; subst a. apply in_combine_l in Ha.
    apply NoDup_remove_2 in Hd. apply Hd. apply in_or_app; left; exact Ha. }
  assert (P := subs_seq_sym_at _ x (ksym y) (combine (map fst R2) (map ksym f2)) Hx1).
  rewrite (hom_proper _ (hom_subs_seq _) _ _ P).
  destruct (HF y) as (Hy & _ & _); [apply in_or_app; right; left; reflexivity|].
  assert (Q : subs_seq (combine (map fst R2) (map ksym f2)) (ksym y) == ksym y).
  { apply subs_seq_sym_other. intros H. apply in_map_iff in H as ([a b] & Ea & Ha). cbn in Ea; subst a. apply in_combine_l in Ha.
    apply Hy. apply in_or_app; right; right; exact Ha. }
  rewrite (hom_proper _ (hom_subs_seq _) _ _ Q).
  rewrite subs_seq_sym_at.
  - apply subs_seq_fix. intros [a b] Ha. cbn [fst snd]. apply in_combine_l in Ha.
    destruct (HF a) as (_ & _ & Hr); [apply in_or_app; right; right; exact Ha|].
    rewrite Forall_forall in Hr. apply (Hr (x, r)). apply in_or_app; right; left; reflexivity.
  - intros H. apply in_map_iff in H as ([a b] & Ea & Ha). cbn in Ea; subst a. apply in_combine_l in Ha.
    apply NoDup_remove_2 in Hf. apply Hf. apply in_or_app; left; exact Ha.
Qed.

Lemma subs_sim_sym_other rules fresh s :
  ~ In s (map fst rules) -> ~ In s fresh -> subs_sim rules fresh (ksym s) == ksym s.
Proof.
  intros H1 H2. unfold subs_sim.
  assert (P : subs_seq (combine (map fst rules) (map ksym fresh)) (ksym s) == ksym s).
  { apply subs_seq_sym_other. intros H. apply in_map_iff in H as ([a b] & Ea & Ha). cbn in Ea; subst a. apply in_combine_l in Ha. contradiction. }
  rewrite (hom_proper _ (hom_subs_seq _) _ _ P).
  apply subs_seq_sym_other. intros H. apply in_map_iff in H as ([a b] & Ea & Ha). cbn in Ea; subst a. apply in_combine_l in Ha. contradiction.
Qed.

Lemma subs_sim_meaning rules fresh :
  NoDup (map fst rules) -> fresh_for rules fresh k0 ->
  (forall x r, In (x, r) rules -> subs_sim rules fresh (ksym x) == r) /\
  (forall s, ~ In s (map fst rules) -> ~ In s fresh -> subs_sim rules fresh (ksym s) == ksym s) /\
  (forall a b, subs_sim rules fresh (a + b) == subs_sim rules fresh a + subs_sim rules fresh b) /\
  (forall a b, subs_sim rules fresh (a * b) == subs_sim rules fresh a * subs_sim rules fresh b) /\
  subs_sim rules fresh k1 == k1.
Proof.
  intros Hd HF.
  assert (H : hom (subs_sim rules fresh)) by (apply (hom_comp (subs_seq _) (subs_seq _)); apply hom_subs_seq).
  split; [intros x r; apply subs_sim_sym; assumption|]. split; [intros s; apply subs_sim_sym_other|].
  split; [apply H|]. split; [apply H|apply H].
Qed.

End SubsP.
