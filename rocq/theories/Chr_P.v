(** Transformation of Christoffel symbols. *)
From Verif Require Import Alg Alg_P Arr Arr_P Arr2_P UtilsM Utils_P Spec Act_P TensorM RL_P Jac_P Tensor_P Jacobian_P.
From Coq Require Import Permutation.
Local Open Scope K_scope.

Section ChrP.
Context {A : AlgOps} {L : AlgLaws A} {DL : DiffLaws A} {SL : SubsLaws A} {IL : InvLaws A}.
Add Ring Kring : kring (setoid keq_equiv kring_ext).

(** ** Substitutions whose right sides contain no left side *)

Definition separate (R : list (string * K)) : Prop :=
  forall r x, In r R -> In x (map fst R) -> free_of x (snd r).

Lemma ksub1_0 s r : ksub1 s r k0 == k0.
Proof.
  assert (H : ksub1 s r k0 + ksub1 s r k0 == ksub1 s r k0) by (rewrite <- ksub1_add; apply ksub1_proper; [reflexivity|ring]).
  transitivity (ksub1 s r k0 + ksub1 s r k0 - ksub1 s r k0); [ring|]. rewrite H. ring.
Qed.

Lemma free_diff x y e : x <> y -> free_of x e -> free_of x (kdiff y e).
Proof.
  intros Hne [H1 H2]. split.
  - rewrite kdiff_comm. rewrite H1. apply kdiff_0.
  - intros q. assert (H := ksub1_chain x y q e). apply String.eqb_neq in Hne. rewrite Hne in H.
    symmetry. etransitivity; [|etransitivity; [exact H|]]; [apply kdiff_proper; symmetry; apply H2|].
    rewrite H1, ksub1_0. ring.
Qed.

Lemma subs_seq_free R e : (forall x, In x (map fst R) -> free_of x e) -> subs_seq R e == e.
Proof.
  unfold subs_seq. revert e; induction R as [|[x r] R IH]; intros e H; cbn [fold_left fst snd]; [reflexivity|].
  assert (Hx : ksub1 x r e == e) by (apply (H x); left; reflexivity).
  transitivity (fold_left (fun y r0 => ksub1 (fst r0) (snd r0) y) R e).
  - apply (hom_proper _ (hom_subs_seq R)). exact Hx.
  - apply IH. intros y Hy. apply H. right; exact Hy.
Qed.

Lemma separate_cons r R : separate (r :: R) -> separate R.
Proof. intros H p x Hp Hx. apply H; right; assumption. Qed.

Lemma separate_perm R R' : Permutation R R' -> separate R -> separate R'.
Proof.
  intros HP H p x Hp Hx. apply H.
  - apply (Permutation_in p (Permutation_sym HP)); exact Hp.
  - apply (Permutation_in x (Permutation_map fst (Permutation_sym HP))); exact Hx.
Qed.

Lemma subs_seq_perm R R' : Permutation R R' -> NoDup (map fst R) -> separate R -> forall x, subs_seq R x == subs_seq R' x.
Proof.
  intros HP. induction HP as [|r R R' HP IH|r r' R|R R' R'' HP1 IH1 HP2 IH2]; intros Hd Hs x.
  - reflexivity.
  - cbn [subs_seq fold_left]. cbn in Hd. inversion Hd; subst. apply IH; [assumption|apply (separate_cons r); exact Hs].
  - cbn [subs_seq fold_left]. apply (hom_proper _ (hom_subs_seq R)).
    cbn in Hd. inversion Hd as [|s l Hn Hd' E]; subst. cbn in Hn.
    assert (F1 : free_of (fst r) (snd r')) by (apply Hs; cbn; auto).
    assert (F2 : free_of (fst r') (snd r)) by (apply Hs; cbn; auto).
    rewrite ksub1_swap; [|intros E; apply Hn; left; congruence|].
    + apply ksub1_proper; [|reflexivity]. apply F1.
    + intros q. apply F2.
  - rewrite IH1 by assumption. apply IH2.
    + apply (Permutation_NoDup (Permutation_map fst HP1)); exact Hd.
    + apply (separate_perm R); assumption.
Qed.

(** Chain rule for the composite substitution. *)
Lemma chain_seq R y h :
  ~ In y (map fst R) -> NoDup (map fst R) -> separate R ->
  kdiff y (subs_seq R h) ==
  subs_seq R (kdiff y h) + lsum R (fun r => subs_seq R (kdiff (fst r) h) * kdiff y (snd r)).
Proof.
  revert h; induction R as [|[x r] R IH]; intros h Hy Hd Hs.
  - cbn. ring.
  - cbn [subs_seq fold_left fst snd map] in *. inversion Hd as [|x' l Hn Hd' E]; subst x' l.
    assert (Hs' : separate R) by (apply (separate_cons (x, r)); exact Hs).
    assert (HP := hom_subs_seq R). fold (subs_seq R (ksub1 x r h)). fold (subs_seq R (ksub1 x r (kdiff y h))).
    rewrite IH; [|intros H; apply Hy; right; exact H|exact Hd'|exact Hs'].
    assert (Hxy : x <> y) by (intros ->; apply Hy; left; reflexivity).
    assert (E1 : kdiff y (ksub1 x r h) == ksub1 x r (kdiff y h) + ksub1 x r (kdiff x h) * kdiff y r).
    { rewrite ksub1_chain. apply String.eqb_neq in Hxy. rewrite Hxy. reflexivity. }
    rewrite (hom_proper _ HP _ _ E1), (hom_add _ HP), (hom_mul _ HP).
    assert (E2 : subs_seq R (kdiff y r) == kdiff y r).
    { apply subs_seq_free. intros z Hz. apply free_diff.
      - intros ->. apply Hy; right; exact Hz.
      - apply (Hs (x, r) z); [left; reflexivity|right; exact Hz]. }
    rewrite E2. cbn [lsum fst snd].
    assert (E3 : lsum R (fun r0 => subs_seq R (kdiff (fst r0) (ksub1 x r h)) * kdiff y (snd r0)) ==
                 lsum R (fun r0 => subs_seq R (ksub1 x r (kdiff (fst r0) h)) * kdiff y (snd r0))).
    { apply lsum_ext. intros p Hp. apply kmul_proper; [|reflexivity]. apply (hom_proper _ HP).
      rewrite ksub1_chain. assert (Hin : In (fst p) (map fst R)) by (apply in_map; exact Hp).
      destruct (String.eqb_spec x (fst p)) as [E|_]; [exfalso; apply Hn; rewrite E; exact Hin|].
      destruct (Hs (x, r) (fst p)) as [F _]; [left; reflexivity|right; exact Hin|]. cbn in F. rewrite F. ring. }
    rewrite E3. unfold subs_seq. cbn [fold_left fst snd]. ring.
Qed.

(** ** The rules in the order of the coordinates *)

Definition rules_by (xs : list string) (rules : list rule) : list rule :=
  map (fun c => (c, match dget String.eqb c rules with Some e => e | None => k0 end)) xs.

Lemma dget_in (rules : list rule) c : In c (map fst rules) -> exists e, dget String.eqb c rules = Some e.
Proof.
  induction rules as [|[s e] rules IH]; intros H; [destruct H|]. cbn in *.
  destruct (String.eqb_spec c s); [eexists; reflexivity|]. apply IH. destruct H as [H|H]; [congruence|exact H].
Qed.

Lemma dget_nodup_in (rules : list rule) c e : NoDup (map fst rules) -> In (c, e) rules -> dget String.eqb c rules = Some e.
Proof.
  induction rules as [|[s x] rules IH]; intros Hd H; [destruct H|]. cbn in *. inversion Hd as [|s' l Hn Hd' E]; subst.
  destruct H as [H|H].
  - injection H as -> ->. rewrite String.eqb_refl. reflexivity.
  - destruct (String.eqb_spec c s) as [->|]; [|apply IH; assumption].
    exfalso. apply Hn. apply (in_map fst) in H. exact H.
Qed.

Lemma dget_some_in (rules : list rule) c e : dget String.eqb c rules = Some e -> In (c, e) rules.
Proof.
  induction rules as [|[s x] rules IH]; cbn; intros H; [discriminate|].
  destruct (String.eqb_spec c s) as [->|]; [injection H as ->; left; reflexivity|right; apply IH; exact H].
Qed.

Lemma rules_by_perm xs rules :
  NoDup (map fst rules) -> Permutation (map fst rules) xs -> Permutation rules (rules_by xs rules).
Proof.
  intros Hd HP. apply NoDup_Permutation.
  - apply (NoDup_map_inv fst); exact Hd.
  - apply (NoDup_map_inv fst). unfold rules_by. rewrite map_map. cbn. rewrite map_id.
    apply (Permutation_NoDup HP); exact Hd.
  - intros [c e]. unfold rules_by. rewrite in_map_iff. split.
    + intros H. exists c. rewrite (dget_nodup_in rules c e Hd H). split; [reflexivity|].
      apply (Permutation_in c HP). apply (in_map fst) in H. exact H.
    + intros (c' & E & Hc). injection E as -> E. apply (Permutation_in c (Permutation_sym HP)) in Hc.
      destruct (dget_in rules c Hc) as [e' He']. rewrite He' in E. subst e'. apply dget_some_in; exact He'.
Qed.

Lemma chr_subs_all xs rules (a : arr) :
  NoDup (map fst rules) -> (forall c, In c xs -> In c (map fst rules)) ->
  chr_subs (ordered_rules xs rules) xs a = Ok (subs_rules (rules_by xs rules) a).
Proof.
  intros Hd. rewrite (ordered_rules_nodup xs rules Hd). revert a; induction xs as [|c xs IH]; intros a H; [reflexivity|].
  destruct (dget_in rules c (H c (or_introl eq_refl))) as [e He].
  cbn [map]. rewrite He. cbn [option_map chr_subs snd]. rewrite IH by (intros c' Hc; apply H; right; exact Hc).
  unfold rules_by. cbn [map]. rewrite He. reflexivity.
Qed.

(** ** The transformation *)

Lemma chr_extra_spec n Ji C :
  square n Ji -> awf C -> shape C = [n; n; n] ->
  exists e, chr_extra Ji C = Ok e /\ awf e /\ shape e = [n; n; n] /\
    forall i j k, (i < n)%nat -> (j < n)%nat -> (k < n)%nat ->
      aget e [i; j; k] == nsum n (fun p => aget Ji [i; p] * aget C [p; j; k]).
Proof.
  intros [WJ SJ] WC SC. unfold chr_extra. assert (St : shape (tprod Ji C) = [n; n; n; n; n]) by (cbn; rewrite SJ, SC; reflexivity).
  unfold tcontract, rank. rewrite St.
  assert (Hok : tcontract_ok [n; n; n; n; n] [(1, 2)]%nat = true) by (unfold tcontract_ok; cbn; rewrite Nat.eqb_refl; reflexivity).
  rewrite Hok. eexists. split; [reflexivity|]. split; [apply awf_tab|]. split; [reflexivity|]. intros i j k Hi Hj Hk.
  rewrite aget_tab by (apply (inb_rng n 3); split; [reflexivity|repeat constructor; lia]).
  change (map (fun p : nat * nat => nth (fst p) [n; n; n; n; n] 0%nat) [(1, 2)]%nat) with (repeat n 1).
  rewrite <- tuples_all_idx, lsum_tuples_1. apply nsum_ext. intros p Hp.
  change (fill (seq 0 (length [n; n; n; n; n])) [(1, 2)]%nat [p] [i; j; k]) with ([i; p] ++ [p; j; k]).
  rewrite aget_tprod; [reflexivity|exact WJ|exact WC|rewrite SJ; apply (inb_rng n 2)|rewrite SC; apply (inb_rng n 3)];
    (split; [reflexivity|repeat constructor; lia]).
Qed.

Lemma act3 n M N P f i j k :
  act n [M; N; P] f [i; j; k] ==
  nsum n (fun p => nsum n (fun q => nsum n (fun r => M i p * N j q * P k r * f [p; q; r]))).
Proof.
  rewrite act_cons. apply nsum_ext. intros p _. rewrite act2, <- nsum_scale.
  apply nsum_ext. intros q _. rewrite <- nsum_scale. apply nsum_ext. intros r _. ring.
Qed.

Lemma inb3 n i j k : (i < n)%nat -> (j < n)%nat -> (k < n)%nat -> inb [n; n; n] [i; j; k] = true.
Proof. intros. apply (inb_rng n 3). split; [reflexivity|repeat constructor; assumption]. Qed.

Section Core.
(** The pure calculation: everything already expressed in the new coordinates. *)
Variables (n : nat) (y : nat -> string).
Variables (G Gi J JI g' gi' : nat -> nat -> K) (C D : nat -> nat -> nat -> K).
Hypothesis HG : forall p q, (p < n)%nat -> (q < n)%nat -> G p q == G q p.
Hypothesis HGi : inverse_fun n G Gi.
Hypothesis HJ : inverse_fun n J JI.
Hypothesis Hg' : meq n g' (mcomp n (mtr J) (mcomp n G J)).
Hypothesis Hgi' : inverse_fun n g' gi'.
Hypothesis HC : forall p j k, (p < n)%nat -> (j < n)%nat -> (k < n)%nat -> kdiff (y k) (J p j) == C p j k.
Hypothesis HCs : forall p j k, (p < n)%nat -> (j < n)%nat -> (k < n)%nat -> C p j k == C p k j.
Hypothesis HD : forall p q k, (p < n)%nat -> (q < n)%nat -> (k < n)%nat ->
  kdiff (y k) (G p q) == nsum n (fun m => D m p q * J m k).

Let E j k l := nsum n (fun p => nsum n (fun q => C p j l * G p q * J q k)).
Let F j k l := nsum n (fun p => nsum n (fun q => nsum n (fun m => J p j * J q k * D m p q * J m l))).

Lemma core_dg j k l : (j < n)%nat -> (k < n)%nat -> (l < n)%nat ->
  kdiff (y l) (g' j k) == E j k l + E k j l + F j k l.
Proof.
  intros Hj Hk Hl. rewrite (Hg' j k Hj Hk). unfold mcomp, mtr. rewrite kdiff_nsum.
  transitivity (nsum n (fun p => nsum n (fun q => C p j l * G p q * J q k + C q k l * G q p * J p j
     + nsum n (fun m => J p j * J q k * D m p q * J m l)))).
  - apply nsum_ext. intros p Hp. rewrite kdiff_mul, kdiff_nsum. rewrite (HC p j l Hp Hj Hl).
    rewrite <- !nsum_scale, <- nsum_add. apply nsum_ext. intros q Hq.
    rewrite kdiff_mul, (HC q k l Hq Hk Hl), (HD p q l Hp Hq Hl).
    rewrite (HG q p Hq Hp).
    transitivity (C p j l * G p q * J q k + C q k l * G p q * J p j + J p j * J q k * nsum n (fun m => D m p q * J m l)); [ring|].
    rewrite <- nsum_scale. apply kadd_proper; [reflexivity|]. apply nsum_ext. intros m _. ring.
  - unfold E, F. rewrite (nsum_swap n n (fun p q => C p k l * G p q * J q j)). rewrite <- !nsum_add.
    apply nsum_ext. intros p _. rewrite <- !nsum_add. apply nsum_ext. intros q _. ring.
Qed.

Let X j k p := nsum n (fun q => knat 2 * G p q * C q j k)
  + nsum n (fun q => nsum n (fun r => J q j * J r k * (D q p r + D r q p - D p q r))).

Lemma core_bracket j k l : (j < n)%nat -> (k < n)%nat -> (l < n)%nat ->
  kdiff (y j) (g' l k) + kdiff (y k) (g' j l) - kdiff (y l) (g' j k) == nsum n (fun p => J p l * X j k p).
Proof.
  intros Hj Hk Hl. rewrite !core_dg by assumption.
  assert (Es : forall a b c, (a < n)%nat -> (b < n)%nat -> (c < n)%nat -> E a b c == E c b a).
  { intros a b c Ha Hb Hc. unfold E. apply nsum_ext. intros p Hp. apply nsum_ext. intros q Hq. rewrite (HCs p a c) by assumption. reflexivity. }
  rewrite (Es l k j), (Es l j k), (Es k l j) by assumption.
  transitivity ((E j l k + E j l k) + (F l k j + F j l k - F j k l)); [ring|].
  unfold X.
  transitivity (nsum n (fun p => J p l * nsum n (fun q => knat 2 * G p q * C q j k)) +
                nsum n (fun p => J p l * nsum n (fun q => nsum n (fun r => J q j * J r k * (D q p r + D r q p - D p q r))))).
  2:{ rewrite <- nsum_add. apply nsum_ext. intros p _. ring. }
  apply kadd_proper.
  - unfold E. rewrite nsum_swap. rewrite <- nsum_add. apply nsum_ext. intros p Hp.
    rewrite <- nsum_add, <- nsum_scale. apply nsum_ext. intros q Hq. rewrite (HG q p Hq Hp). cbn [knat]. ring.
  - unfold F.
    transitivity (nsum n (fun p => nsum n (fun q => nsum n (fun r => J p l * J q j * J r k * D q p r)))
                + nsum n (fun p => nsum n (fun q => nsum n (fun r => J p l * J q j * J r k * D r q p)))
                - nsum n (fun p => nsum n (fun q => nsum n (fun r => J p l * J q j * J r k * D p q r)))).
    + assert (T1 : nsum n (fun p => nsum n (fun q => nsum n (fun m => J p l * J q k * D m p q * J m j)))
                == nsum n (fun p => nsum n (fun q => nsum n (fun r => J p l * J q j * J r k * D q p r)))).
      { apply nsum_ext. intros p _. rewrite nsum_swap. apply nsum_ext. intros q _. apply nsum_ext. intros r _. ring. }
      assert (T2 : nsum n (fun p => nsum n (fun q => nsum n (fun m => J p j * J q l * D m p q * J m k)))
                == nsum n (fun p => nsum n (fun q => nsum n (fun r => J p l * J q j * J r k * D r q p)))).
      { rewrite nsum_swap. apply nsum_ext. intros p _. apply nsum_ext. intros q _. apply nsum_ext. intros r _. ring. }
      assert (T3 : nsum n (fun p => nsum n (fun q => nsum n (fun m => J p j * J q k * D m p q * J m l)))
                == nsum n (fun p => nsum n (fun q => nsum n (fun r => J p l * J q j * J r k * D p q r)))).
      { transitivity (nsum n (fun p => nsum n (fun m => nsum n (fun q => J p j * J q k * D m p q * J m l)))).
        - apply nsum_ext. intros p _. apply nsum_swap.
        - rewrite nsum_swap. apply nsum_ext. intros p _. apply nsum_ext. intros q _. apply nsum_ext. intros r _. ring. }
      rewrite T1, T2, T3. reflexivity.
    + rewrite <- nsum_add, <- nsum_sub. apply nsum_ext. intros p _. rewrite <- nsum_add, <- nsum_sub, <- nsum_scale.
      apply nsum_ext. intros q _. rewrite <- nsum_add, <- nsum_sub, <- nsum_scale. apply nsum_ext. intros r _. ring.
Qed.

Let Gam p q r := nsum n (fun l => kinvn 2 * (Gi p l * (D q l r + D r q l - D l q r))).

Lemma core i j k : (i < n)%nat -> (j < n)%nat -> (k < n)%nat ->
  nsum n (fun p => nsum n (fun q => nsum n (fun r => JI i p * J q j * J r k * Gam p q r)))
  + nsum n (fun p => JI i p * C p j k) == christoffel_of n y g' gi' i j k.
Proof.
  intros Hi Hj Hk.
  assert (HI : meq n gi' (mcomp n JI (mcomp n Gi (mtr JI)))).
  { apply inverse_fun_meq in Hgi' as [_ I2]. eapply inverse_unique; [exact I2|].
    assert (H : inverse_fun n g' (mcomp n JI (mcomp n Gi (mtr JI)))).
    { eapply inverse_ext; [apply meq_sym; exact Hg'| |apply inverse_comp; [apply inverse_tr; exact HJ|apply inverse_comp; [exact HGi|exact HJ]]].
      apply mcomp_assoc. }
    apply (proj1 (inverse_fun_meq _ _ _)) in H as [H1 _]. exact H1. }
  assert (HIJ : meq n (mcomp n gi' (mtr J)) (mcomp n JI Gi)).
  { eapply meq_trans; [apply mcomp_ext; [exact HI|apply meq_refl]|]. eapply meq_trans; [apply mcomp_assoc|].
    apply mcomp_ext; [apply meq_refl|]. apply mcomp_cancel_r. apply (inverse_fun_meq n), inverse_tr; exact HJ. }
  unfold christoffel_of.
  transitivity (nsum n (fun p => kinvn 2 * mcomp n JI Gi i p * X j k p)).
  2:{ transitivity (nsum n (fun p => kinvn 2 * mcomp n gi' (mtr J) i p * X j k p)).
      { apply nsum_ext. intros p Hp. rewrite (HIJ i p Hi Hp). reflexivity. }
      unfold mcomp, mtr.
      transitivity (nsum n (fun p => nsum n (fun l => kinvn 2 * (gi' i l * (J p l * X j k p))))).
      { apply nsum_ext. intros p _. transitivity (nsum n (fun l => gi' i l * J p l) * (kinvn 2 * X j k p)); [ring|].
        rewrite <- nsum_scale_r. apply nsum_ext. intros l _. ring. }
      rewrite nsum_swap. apply nsum_ext. intros l Hl. rewrite (core_bracket j k l Hj Hk Hl).
      rewrite <- !nsum_scale. apply nsum_ext. intros p _. ring. }
  transitivity (nsum n (fun a => JI i a * nsum n (fun p => kinvn 2 * (Gi a p * X j k p)))).
  2:{ unfold mcomp. transitivity (nsum n (fun p => nsum n (fun a => JI i a * (kinvn 2 * (Gi a p * X j k p))))).
      - rewrite nsum_swap. apply nsum_ext. intros a _. rewrite <- nsum_scale. reflexivity.
      - apply nsum_ext. intros p _. transitivity (nsum n (fun a => JI i a * Gi a p) * (kinvn 2 * X j k p)); [|ring].
        rewrite <- nsum_scale_r. apply nsum_ext. intros a _. ring. }
  rewrite <- nsum_add. apply nsum_ext. intros a Ha.
  transitivity (JI i a * (nsum n (fun q => nsum n (fun r => J q j * J r k * Gam a q r)) + C a j k)).
  { transitivity (JI i a * nsum n (fun q => nsum n (fun r => J q j * J r k * Gam a q r)) + JI i a * C a j k); [|ring].
    apply kadd_proper; [|reflexivity]. rewrite <- nsum_scale. apply nsum_ext. intros q _. rewrite <- nsum_scale. apply nsum_ext. intros r _. ring. }
  apply kmul_proper; [reflexivity|]. unfold X.
  transitivity (nsum n (fun p => kinvn 2 * (Gi a p * nsum n (fun q => nsum n (fun r => J q j * J r k * (D q p r + D r q p - D p q r)))))
     + nsum n (fun p => kinvn 2 * (Gi a p * nsum n (fun q => knat 2 * G p q * C q j k)))).
  2:{ rewrite <- nsum_add. apply nsum_ext. intros p _. ring. }
  apply kadd_proper.
  - unfold Gam. transitivity (nsum n (fun q => nsum n (fun r => nsum n (fun p => J q j * J r k * (kinvn 2 * (Gi a p * (D q p r + D r q p - D p q r))))))).
    + apply nsum_ext. intros q _. apply nsum_ext. intros r _. symmetry. apply nsum_scale.
    + transitivity (nsum n (fun q => nsum n (fun p => nsum n (fun r => J q j * J r k * (kinvn 2 * (Gi a p * (D q p r + D r q p - D p q r))))))).
      { apply nsum_ext. intros q _. apply nsum_swap. }
      rewrite nsum_swap. apply nsum_ext. intros p _.
      rewrite <- !nsum_scale. apply nsum_ext. intros q _. rewrite <- !nsum_scale. apply nsum_ext. intros r _. ring.
  - destruct HGi as [_ I2].
    transitivity (nsum n (fun q => kdelta a q * C q j k)); [symmetry; apply (nsum_delta_l n a (fun q => C q j k)); exact Ha|].
    transitivity (nsum n (fun q => nsum n (fun p => Gi a p * G p q) * C q j k)).
    { apply nsum_ext. intros q Hq. rewrite (I2 a q Ha Hq). reflexivity. }
    transitivity (nsum n (fun q => nsum n (fun p => Gi a p * G p q * C q j k))).
    { apply nsum_ext. intros q _. rewrite nsum_scale_r. reflexivity. }
    rewrite nsum_swap. apply nsum_ext. intros p _. rewrite <- !nsum_scale. apply nsum_ext. intros q _.
    assert (H2 : knat 2 * kinvn 2 == k1) by (apply kinvn_ok; lia).
    transitivity (knat 2 * kinvn 2 * (Gi a p * G p q * C q j k)); [rewrite H2|]; ring.
Qed.

End Core.

Lemma christoffel_transform_spec n xs ys rules g gi Gam J Ji C g' gi' :
  (1 <= n)%nat -> length xs = n -> length ys = n ->
  NoDup (map fst rules) -> Permutation (map fst rules) xs ->
  (forall x, In x xs -> ~ In x ys) ->
  (forall r x, In r rules -> In x xs -> free_of x (snd r)) ->
  square n g -> square n gi -> symmetric_fun n (mfun g) -> inverse_fun n (mfun g) (mfun gi) ->
  (forall s i j, In s ys -> (i < n)%nat -> (j < n)%nat -> kdiff s (aget g [i; j]) == k0) ->
  awf Gam -> shape Gam = [n; n; n] ->
  (forall i j k, (i < n)%nat -> (j < n)%nat -> (k < n)%nat ->
     aget Gam [i; j; k] == christoffel_of n (fun m => nth m xs ""%string) (mfun g) (mfun gi) i j k) ->
  calculate_jacobian xs ys rules = Ok (J, Ji, C) ->
  transform J Ji rules 2 [-1; -1]%Z g = Ok g' -> square n gi' -> inverse_fun n (mfun g') (mfun gi') ->
  exists Gam', christoffel_transform xs J Ji C rules 3 [1; -1; -1]%Z Gam = Ok Gam' /\
    awf Gam' /\ shape Gam' = [n; n; n] /\
    forall i j k, (i < n)%nat -> (j < n)%nat -> (k < n)%nat ->
      aget Gam' [i; j; k] == christoffel_of n (fun m => nth m ys ""%string) (mfun g') (mfun gi') i j k.
Proof.
  intros Hn Hlx Hly Hd HP Hdis Hfree Hg Hgi Hsym Hinv Hgy WG SG HGam EJ Eg' Hgi' Hinv'.
  destruct (calculate_jacobian_spec n xs ys rules Hn Hlx Hly Hd J Ji C EJ) as (SqJ & SqJi & WC & SC & InvJ & GJ & GC & CS).
  assert (RG : rank Gam = 3%nat) by (unfold rank; rewrite SG; reflexivity).
  assert (CG : cubic n Gam) by (split; [exact WG|rewrite RG; exact SG]).
  destruct (jac_contract_spec n J Ji [1; -1; -1]%Z Gam CG SqJ SqJi) as (t & Et & Wt & St & Gt).
  { repeat (apply Forall_cons; [auto|]). apply Forall_nil. } { rewrite RG; reflexivity. }
  destruct (chr_extra_spec n Ji C SqJi WC SC) as (e & Ee & We & Se & Ge).
  unfold christoffel_transform. rewrite RG in Et. rewrite Et, Ee. cbn [rbind].
  destruct (aadd_ok t e Wt We) as (u & Eu & Wu & Su & Gu); [congruence|].
  rewrite Eu. cbn [rbind].
  rewrite chr_subs_all; [|exact Hd|intros c Hc; apply (Permutation_in c (Permutation_sym HP)); exact Hc].
  cbn [rbind]. destruct (subs_rules_spec (rules_by xs rules) u Wu) as (Ws & Ss & Gs).
  eexists. split; [reflexivity|]. split; [apply awf_amap; exact Ws|]. split; [cbn; congruence|].
  intros i j k Hi Hj Hk.
  assert (Hsep : separate rules).
  { intros r x Hr Hx. apply Hfree; [exact Hr|]. apply (Permutation_in x HP); exact Hx. }
  assert (HRP := rules_by_perm xs rules Hd HP).
  assert (Hin : inb [n; n; n] [i; j; k] = true) by (apply inb3; assumption).
  rewrite aget_amap; [|exact Ws|rewrite Ss, Su, St, SG; exact Hin]. rewrite simp_ok.
  rewrite Gs by (rewrite Su, St, SG; exact Hin).
  rewrite <- (subs_seq_perm rules (rules_by xs rules) HRP Hd Hsep).
  set (s := subs_seq rules). assert (Hs : hom s) by apply hom_subs_seq.
  (* facts about symbols *)
  assert (Hrule : forall m, (m < n)%nat -> exists r, dget String.eqb (nth m xs ""%string) rules = Some r /\ In (nth m xs ""%string, r) rules).
  { intros m Hm. destruct (dget_in rules (nth m xs ""%string)) as [r Hr].
    - apply (Permutation_in _ (Permutation_sym HP)). apply nth_In. lia.
    - exists r. split; [exact Hr|apply dget_some_in; exact Hr]. }
  assert (Hne : forall x q, In x xs -> (q < n)%nat -> x <> nth q ys ""%string).
  { intros x q Hx Hq ->. apply (Hdis _ Hx). apply nth_In. lia. }
  assert (FJ : forall p q x, (p < n)%nat -> (q < n)%nat -> In x xs -> exists e', aget J [p; q] == e' /\ free_of x e').
  { intros p q x Hp Hq Hx. destruct (Hrule p Hp) as (r & Hr & Hrin). exists (kdiff (nth q ys ""%string) r). split.
    - rewrite GJ by assumption. rewrite Hr. reflexivity.
    - apply free_diff; [apply Hne; assumption|]. apply (Hfree _ x Hrin Hx). }
  assert (sfree : forall e, (forall x, In x xs -> free_of x e) -> s e == e).
  { intros e0 H. apply subs_seq_free. intros x Hx. apply H. apply (Permutation_in x HP); exact Hx. }
  assert (sJ : forall p q, (p < n)%nat -> (q < n)%nat -> s (aget J [p; q]) == aget J [p; q]).
  { intros p q Hp Hq. destruct (Hrule p Hp) as (r & Hr & Hrin).
    assert (E : aget J [p; q] == kdiff (nth q ys ""%string) r) by (rewrite GJ by assumption; rewrite Hr; reflexivity).
    rewrite (hom_proper _ Hs _ _ E), E. apply sfree. intros x Hx. apply free_diff; [apply Hne; assumption|apply (Hfree _ x Hrin Hx)]. }
  assert (sC : forall p q r, (p < n)%nat -> (q < n)%nat -> (r < n)%nat -> s (aget C [p; q; r]) == kdiff (nth r ys ""%string) (aget J [p; q])).
  { intros p q r Hp Hq Hr. destruct (Hrule p Hp) as (f & Hf & Hfin).
    assert (E : aget C [p; q; r] == kdiff (nth r ys ""%string) (kdiff (nth q ys ""%string) f)) by (rewrite GC by assumption; rewrite Hf; reflexivity).
    assert (E' : aget J [p; q] == kdiff (nth q ys ""%string) f) by (rewrite GJ by assumption; rewrite Hf; reflexivity).
    rewrite (hom_proper _ Hs _ _ E), E'. apply sfree. intros x Hx.
    apply free_diff; [apply Hne; assumption|]. apply free_diff; [apply Hne; assumption|apply (Hfree _ x Hfin Hx)]. }
  assert (Gu' : aget u [i; j; k] == aget t [i; j; k] + aget e [i; j; k]).
  { rewrite (Gu [i; j; k]); [reflexivity|]. rewrite St, SG; exact Hin. }
  rewrite (hom_proper _ Hs _ _ Gu'), (hom_add _ Hs).
  assert (Gt' := Gt [i; j; k] ltac:(rewrite SG; exact Hin)). cbn [map jac Z.eqb Pos.eqb] in Gt'. rewrite act3 in Gt'.
  rewrite (hom_proper _ Hs _ _ Gt'), (hom_proper _ Hs _ _ (Ge i j k Hi Hj Hk)).
  destruct (transform_metric n J Ji rules g Hg SqJ SqJi) as (g'' & E'' & Sqg' & Hg'). cbn zeta in Hg'.
  assert (g'' = g') by congruence. subst g''. fold s in Hg'.
  assert (HsJ : meq n (hmat s (mfun J)) (mfun J)) by (intros p q Hp Hq; apply sJ; assumption).
  rewrite <- (core n (fun m => nth m ys ""%string) (hmat s (mfun g)) (hmat s (mfun gi)) (mfun J) (hmat s (mfun Ji)) (mfun g') (mfun gi')
     (fun p q r => s (aget C [p; q; r])) (fun m p q => s (kdiff (nth m xs ""%string) (aget g [p; q])))); try assumption.
  - apply kadd_proper.
    + rewrite hom_nsum by exact Hs. apply nsum_ext. intros p Hp. rewrite hom_nsum by exact Hs. apply nsum_ext. intros q Hq.
      rewrite hom_nsum by exact Hs. apply nsum_ext. intros r Hr. rewrite !(hom_mul _ Hs).
      rewrite (sJ q j Hq Hj : s (mfun J q j) == mfun J q j), (sJ r k Hr Hk : s (mfun J r k) == mfun J r k).
      apply kmul_proper; [reflexivity|].
      rewrite (hom_proper _ Hs _ _ (HGam p q r Hp Hq Hr)). unfold christoffel_of. rewrite hom_nsum by exact Hs.
      apply nsum_ext. intros l Hl. rewrite !(hom_mul _ Hs). 
      assert (Sub : forall a b c, s (a + b - c) == s a + s b - s c).
      { intros a b c. transitivity (s (a + b + (- c))); [apply (hom_proper _ Hs); ring|].
        rewrite !(hom_add _ Hs). assert (On : s (- c) == - s c).
        { transitivity (s (- c) + s c - s c); [ring|]. rewrite <- (hom_add _ Hs).
          assert (Z0 : s (- c + c) == k0) by (rewrite <- (hom_0 s Hs); apply (hom_proper _ Hs); ring). rewrite Z0. ring. }
        rewrite On. ring. }
      rewrite Sub.
      assert (Half : s (kinvn 2) == kinvn 2).
      { assert (H2 : knat 2 * kinvn 2 == k1) by (apply kinvn_ok; lia).
        assert (Hk2 : s (knat 2) == knat 2) by (cbn [knat]; rewrite !(hom_add _ Hs), !(hom_1 _ Hs), (hom_0 s Hs); reflexivity).
        assert (H3 : knat 2 * s (kinvn 2) == k1) by (rewrite <- Hk2, <- (hom_mul _ Hs), <- (hom_1 _ Hs); apply (hom_proper _ Hs); exact H2).
        transitivity (knat 2 * kinvn 2 * s (kinvn 2)); [rewrite H2; ring|]. transitivity (kinvn 2 * (knat 2 * s (kinvn 2))); [ring|]. rewrite H3. ring. }
      rewrite Half. reflexivity.
    + rewrite hom_nsum by exact Hs. apply nsum_ext. intros p Hp. rewrite (hom_mul _ Hs). reflexivity.
  - intros p q Hp Hq. unfold hmat. apply (hom_proper _ Hs). apply (Hsym p q Hp Hq).
  - apply hmat_inverse; assumption.
  - eapply inverse_ext; [exact HsJ|apply meq_refl|]. apply hmat_inverse; assumption.
  - eapply meq_trans; [exact Hg'|]. apply mcomp_ext; [intros p q Hp Hq; unfold mtr; apply HsJ; assumption|].
    apply mcomp_ext; [apply meq_refl|exact HsJ].
  - intros p q r Hp Hq Hr. cbn beta. rewrite sC by assumption. reflexivity.
  - intros p q r Hp Hq Hr. cbn beta. apply (hom_proper _ Hs). apply CS; assumption.
  - intros p q m Hp Hq Hm. cbn beta. unfold hmat, mfun at 1.
    assert (Hyin : In (nth m ys ""%string) ys) by (apply nth_In; lia).
    unfold s. rewrite chain_seq; [|intros H; apply (Hdis (nth m ys ""%string)); [apply (Permutation_in _ HP); exact H|exact Hyin]|exact Hd|exact Hsep].
    fold s. rewrite (hom_proper _ Hs _ _ (Hgy _ p q Hyin Hp Hq)), (hom_0 s Hs).
    rewrite (lsum_perm _ _ _ HRP). unfold rules_by. rewrite lsum_map. cbn [fst snd].
    transitivity (k0 + nsum n (fun a => s (kdiff (nth a xs ""%string) (aget g [p; q])) * aget J [a; m])); [|unfold mfun; ring].
    apply kadd_proper; [reflexivity|].
    transitivity (lsum (map (fun a => nth a xs ""%string) (seq 0 n)) (fun c => s (kdiff c (aget g [p; q])) *
       kdiff (nth m ys ""%string) (match dget String.eqb c rules with Some e0 => e0 | None => k0 end))).
    + rewrite <- Hlx, map_nth_seq. reflexivity.
    + rewrite lsum_map. apply nsum_ext. intros a Ha. rewrite GJ by assumption.
      destruct (Hrule a Ha) as (f & Hf & _). rewrite Hf. reflexivity.
Qed.

End ChrP.
