(** Consequences for tensors: round trips, composition, commutation, invariance of full
    contractions. *)
From Verif Require Import Alg Alg_P Arr Arr_P Arr2_P UtilsM Utils_P Spec Act_P TensorM RL_P Jac_P.
From Coq Require Import Permutation.
Local Open Scope K_scope.

Section TensorP.
Context {A : AlgOps} {L : AlgLaws A}.
Add Ring Kring : kring (setoid keq_equiv kring_ext).

(** ** Matrices *)

Lemma meq_refl n M : meq n M M.
Proof. intros i k _ _. reflexivity. Qed.
Lemma meq_sym n M N : meq n M N -> meq n N M.
Proof. intros H i k Hi Hk. symmetry. apply H; assumption. Qed.
Lemma meq_trans n M N P : meq n M N -> meq n N P -> meq n M P.
Proof. intros H1 H2 i k Hi Hk. rewrite (H1 i k Hi Hk). apply H2; assumption. Qed.

Lemma mcomp_ext n M M' N N' : meq n M M' -> meq n N N' -> meq n (mcomp n M N) (mcomp n M' N').
Proof.
  intros H1 H2 i k Hi Hk. unfold mcomp. apply nsum_ext. intros j Hj.
  rewrite (H1 i j Hi Hj), (H2 j k Hj Hk). reflexivity.
Qed.

Lemma mcomp_assoc n M N P : meq n (mcomp n (mcomp n M N) P) (mcomp n M (mcomp n N P)).
Proof.
  intros i k _ _. unfold mcomp.
  transitivity (nsum n (fun j => nsum n (fun l => M i l * N l j * P j k))).
  - apply nsum_ext. intros j _. rewrite nsum_scale_r. reflexivity.
  - rewrite nsum_swap. apply nsum_ext. intros l _. rewrite <- nsum_scale.
    apply nsum_ext. intros j _. ring.
Qed.

Lemma mcomp_delta_l n M : meq n (mcomp n kdelta M) M.
Proof. intros i k Hi _. unfold mcomp. rewrite nsum_delta_l by exact Hi. reflexivity. Qed.

Lemma mcomp_delta_r n M : meq n (mcomp n M kdelta) M.
Proof. intros i k _ Hk. unfold mcomp. rewrite nsum_delta_r by exact Hk. reflexivity. Qed.

Definition mtr (M : nat -> nat -> K) : nat -> nat -> K := fun i k => M k i.

Lemma mcomp_tr n M N : meq n (mcomp n (mtr M) (mtr N)) (mtr (mcomp n N M)).
Proof. intros i k _ _. unfold mcomp, mtr. apply nsum_ext. intros j _. ring. Qed.

Lemma kdelta_tr n : meq n (mtr kdelta) kdelta.
Proof. intros i k _ _. unfold mtr. rewrite kdelta_sym. reflexivity. Qed.

Lemma inverse_fun_meq n f g :
  inverse_fun n f g <-> meq n (mcomp n f g) kdelta /\ meq n (mcomp n g f) kdelta.
Proof. unfold inverse_fun, meq, mcomp. reflexivity. Qed.

(** Inverses are unique. *)
Lemma inverse_unique n f g h :
  meq n (mcomp n h f) kdelta -> meq n (mcomp n f g) kdelta -> meq n h g.
Proof.
  intros H1 H2.
  apply (meq_trans n _ (mcomp n h kdelta)); [apply meq_sym, mcomp_delta_r|].
  apply (meq_trans n _ (mcomp n h (mcomp n f g))); [apply mcomp_ext; [apply meq_refl|apply meq_sym; exact H2]|].
  apply (meq_trans n _ (mcomp n (mcomp n h f) g)); [apply meq_sym, mcomp_assoc|].
  apply (meq_trans n _ (mcomp n kdelta g)); [apply mcomp_ext; [exact H1|apply meq_refl]|].
  apply mcomp_delta_l.
Qed.

Lemma inverse_tr n f g : inverse_fun n f g -> inverse_fun n (mtr f) (mtr g).
Proof.
  intros H. apply inverse_fun_meq in H as [H1 H2]. apply inverse_fun_meq. split.
  - eapply meq_trans; [apply mcomp_tr|]. intros i k Hi Hk. unfold mtr. rewrite (H2 k i Hk Hi).
    rewrite kdelta_sym. reflexivity.
  - eapply meq_trans; [apply mcomp_tr|]. intros i k Hi Hk. unfold mtr. rewrite (H1 k i Hk Hi).
    rewrite kdelta_sym. reflexivity.
Qed.

Lemma inverse_sym n (f g : nat -> nat -> K) : inverse_fun n f g -> inverse_fun n g f.
Proof. intros [H1 H2]; split; assumption. Qed.

Lemma inverse_ext n f f' g g' :
  meq n f f' -> meq n g g' -> inverse_fun n f g -> inverse_fun n f' g'.
Proof.
  intros Hf Hg H. apply inverse_fun_meq in H as [H1 H2]. apply inverse_fun_meq.
  split.
  - eapply meq_trans; [|exact H1]. apply mcomp_ext; apply meq_sym; assumption.
  - eapply meq_trans; [|exact H2]. apply mcomp_ext; apply meq_sym; assumption.
Qed.

(** Product of invertible matrices. *)
Lemma mcomp_cancel_r n f g h :
  meq n (mcomp n g h) kdelta -> meq n (mcomp n (mcomp n f g) h) f.
Proof.
  intros H. eapply meq_trans; [apply mcomp_assoc|].
  eapply meq_trans; [apply mcomp_ext; [apply meq_refl|exact H]|]. apply mcomp_delta_r.
Qed.

Lemma mcomp_cancel_l n f g h :
  meq n (mcomp n f g) kdelta -> meq n (mcomp n f (mcomp n g h)) h.
Proof.
  intros H. eapply meq_trans; [apply meq_sym, mcomp_assoc|].
  eapply meq_trans; [apply mcomp_ext; [exact H|apply meq_refl]|]. apply mcomp_delta_l.
Qed.

Lemma inverse_comp n f f' g g' :
  inverse_fun n f f' -> inverse_fun n g g' -> inverse_fun n (mcomp n f g) (mcomp n g' f').
Proof.
  intros Hf Hg. apply inverse_fun_meq in Hf as [F1 F2]. apply inverse_fun_meq in Hg as [G1 G2].
  apply inverse_fun_meq. split.
  - eapply meq_trans; [apply mcomp_assoc|].
    eapply meq_trans; [apply mcomp_ext; [apply meq_refl|apply mcomp_cancel_l; exact G1]|]. exact F1.
  - eapply meq_trans; [apply mcomp_assoc|].
    eapply meq_trans; [apply mcomp_ext; [apply meq_refl|apply mcomp_cancel_l; exact F2]|]. exact G2.
Qed.

(** ** Composition of conversions *)

Lemma conv_comp n g gi s t u :
  inverse_fun n g gi -> (s = 1 \/ s = -1)%Z -> (t = 1 \/ t = -1)%Z -> (u = 1 \/ u = -1)%Z ->
  meq n (mcomp n (conv g gi t u) (conv g gi s t)) (conv g gi s u).
Proof.
  intros H Hs Ht Hu. apply inverse_fun_meq in H as [H1 H2].
  destruct Hs as [-> | ->], Ht as [-> | ->], Hu as [-> | ->]; cbn;
    (apply mcomp_delta_l || apply mcomp_delta_r || assumption).
Qed.

Lemma Forall2_map_combine {X Y Z W} (P : Z -> W -> Prop) (f : X * Y -> Z) (g : X * Y -> W) l :
  (forall p, In p l -> P (f p) (g p)) -> Forall2 P (map f l) (map g l).
Proof.
  induction l as [|p l IH]; intros H; cbn; constructor.
  - apply H; left; reflexivity.
  - apply IH. intros q Hq; apply H; right; exact Hq.
Qed.

Lemma conv_list_comp n g gi src tgt u :
  inverse_fun n g gi -> valid_cfg src -> valid_cfg tgt -> valid_cfg u ->
  length src = length tgt -> length tgt = length u ->
  Forall2 (meq n)
    (map (fun mn => mcomp n (fst mn) (snd mn))
       (combine (map (fun st => conv g gi (fst st) (snd st)) (combine tgt u))
                (map (fun st => conv g gi (fst st) (snd st)) (combine src tgt))))
    (map (fun st => conv g gi (fst st) (snd st)) (combine src u)).
Proof.
  intros Hg Hs. revert tgt u; induction Hs as [|s src Hs1 Hs IH]; intros [|t tgt] [|w u] Ht Hu H1 H2; cbn in H1, H2; try discriminate; cbn.
  - constructor.
  - inversion Ht; inversion Hu; subst. constructor; [apply conv_comp; assumption|]. apply IH; (assumption || lia).
Qed.

Lemma raise_lower_composition n g gi src tgt u a :
  (1 <= n)%nat -> square n g -> square n gi -> inverse_fun n (mfun g) (mfun gi) ->
  valid_cfg src -> valid_cfg tgt -> valid_cfg u ->
  cubic n a -> length src = rank a -> length tgt = rank a -> length u = rank a ->
  exists b c d, raise_lower g gi src tgt a = Ok b /\ raise_lower g gi tgt u b = Ok c /\
    raise_lower g gi src u a = Ok d /\ aeq c d.
Proof.
  intros Hn Hg Hgi Hinv Hs Ht Hu Hc Ls Lt Lu.
  destruct (raise_lower_spec n g gi src tgt a Hn Hg Hgi Hs Ht Hc Ls Lt) as (b & Eb & Wb & Sb & Gb).
  assert (Hrb : rank b = rank a) by (unfold rank; rewrite Sb; reflexivity).
  assert (Hcb : cubic n b) by (split; [exact Wb|rewrite Hrb, Sb; apply Hc]).
  destruct (raise_lower_spec n g gi tgt u b Hn Hg Hgi Ht Hu Hcb ltac:(lia) ltac:(lia)) as (c & Ec & Wc & Sc & Gc).
  destruct (raise_lower_spec n g gi src u a Hn Hg Hgi Hs Hu Hc Ls Lu) as (d & Ed & Wd & Sd & Gd).
  exists b, c, d. split; [exact Eb|]. split; [exact Ec|]. split; [exact Ed|].
  split; [congruence|]. intros idx Hidx. rewrite Sc, Sb in Hidx.
  rewrite Gc by (rewrite Sb; exact Hidx). rewrite Gd by exact Hidx.
  destruct Hc as [Wa Sa]. assert (Hidx' := Hidx). rewrite Sa in Hidx'. apply inb_rng in Hidx' as [Hl Hr].
  rewrite (act_ext n _ (aget b) (act n (map (fun st => conv (mfun g) (mfun gi) (fst st) (snd st)) (combine src tgt)) (aget a)));
    [|rewrite map_length, combine_length; lia|exact Hr|].
  - rewrite act_comp by (rewrite map_length, combine_length; lia).
    apply act_mext; [|exact Hr|].
    + rewrite map_length, combine_length, !map_length, !combine_length. lia.
    + apply conv_list_comp; (assumption || lia).
  - intros ks Hk1 Hk2. apply Gb. rewrite Sa. apply inb_rng. split; [lia|exact Hk2].
Qed.

Lemma conv_same_id n g gi src :
  Forall (fun M => meq n M kdelta) (map (fun st => conv g gi (fst st) (snd st)) (combine src src)).
Proof.
  induction src as [|s src IH]; cbn; constructor; [|exact IH]. cbn [fst snd]. unfold conv. rewrite Z.eqb_refl. apply meq_refl.
Qed.

Lemma raise_lower_same n g gi src a :
  (1 <= n)%nat -> square n g -> square n gi -> valid_cfg src -> cubic n a -> length src = rank a ->
  exists b, raise_lower g gi src src a = Ok b /\ awf b /\ aeq b a.
Proof.
  intros Hn Hg Hgi Hs Hc Ls.
  destruct (raise_lower_spec n g gi src src a Hn Hg Hgi Hs Hs Hc Ls Ls) as (b & Eb & Wb & Sb & Gb).
  exists b. split; [exact Eb|]. split; [exact Wb|]. split; [exact Sb|]. intros idx Hidx. rewrite Sb in Hidx.
  rewrite Gb by exact Hidx. destruct Hc as [Wa Sa]. rewrite Sa in Hidx. apply inb_rng in Hidx as [Hl Hr].
  apply act_id; [rewrite map_length, combine_length; lia|exact Hr|apply conv_same_id].
Qed.

Lemma raise_lower_round_trip n g gi src tgt a :
  (1 <= n)%nat -> square n g -> square n gi -> inverse_fun n (mfun g) (mfun gi) ->
  valid_cfg src -> valid_cfg tgt ->
  cubic n a -> length src = rank a -> length tgt = rank a ->
  exists b c, raise_lower g gi src tgt a = Ok b /\ raise_lower g gi tgt src b = Ok c /\ aeq c a.
Proof.
  intros Hn Hg Hgi Hinv Hs Ht Hc Ls Lt.
  destruct (raise_lower_composition n g gi src tgt src a Hn Hg Hgi Hinv Hs Ht Hs Hc Ls Lt Ls) as (b & c & d & Eb & Ec & Ed & H).
  destruct (raise_lower_same n g gi src a Hn Hg Hgi Hs Hc Ls) as (d' & Ed' & _ & H').
  exists b, c. split; [exact Eb|]. split; [exact Ec|]. assert (d = d') by congruence. subst d'.
  rewrite H. exact H'.
Qed.

(** ** Substitutions are ring homomorphisms *)

Record hom (s : K -> K) : Prop := {
  hom_proper : Proper (keq ==> keq) s;
  hom_add : forall x y, s (x + y) == s x + s y;
  hom_mul : forall x y, s (x * y) == s x * s y;
  hom_1 : s k1 == k1
}.

Lemma hom_id : hom (fun x => x).
Proof. constructor; [intros x y H; exact H|reflexivity|reflexivity|reflexivity]. Qed.

Lemma hom_comp s t : hom s -> hom t -> hom (fun x => s (t x)).
Proof.
  intros [P1 A1 M1 O1] [P2 A2 M2 O2]. constructor.
  - intros x y H. apply P1, P2, H.
  - intros x y. rewrite (P1 _ _ (A2 x y)). apply A1.
  - intros x y. rewrite (P1 _ _ (M2 x y)). apply M1.
  - rewrite (P1 _ _ O2). exact O1.
Qed.

Lemma hom_0 s : hom s -> s k0 == k0.
Proof.
  intros [P Ad _ _]. assert (H : s k0 + s k0 == s k0) by (rewrite <- Ad; apply P; ring).
  transitivity (s k0 + s k0 - s k0); [ring|]. rewrite H. ring.
Qed.

Lemma hom_lsum {X} s (l : list X) f : hom s -> s (lsum l f) == lsum l (fun x => s (f x)).
Proof.
  intros Hs. induction l as [|x l IH]; cbn; [apply hom_0; exact Hs|].
  rewrite (hom_add _ Hs), IH. reflexivity.
Qed.

Lemma hom_nsum s n f : hom s -> s (nsum n f) == nsum n (fun i => s (f i)).
Proof. apply hom_lsum. Qed.

Lemma hom_kdelta s i j : hom s -> s (kdelta i j) == kdelta i j.
Proof.
  intros Hs. unfold kdelta. destruct (i =? j)%nat; [apply hom_1; exact Hs|apply hom_0; exact Hs].
Qed.

Definition hmat (s : K -> K) (M : nat -> nat -> K) : nat -> nat -> K := fun i k => s (M i k).

Lemma hom_act s n Ms f idx :
  hom s -> length Ms = length idx -> s (act n Ms f idx) == act n (map (hmat s) Ms) (fun ks => s (f ks)) idx.
Proof.
  intros Hs. revert f idx; induction Ms as [|M Ms IH]; intros f [|i idx] Hl; cbn in Hl; try discriminate.
  - cbn [map]. transitivity (s (f [])); [apply (hom_proper _ Hs), act_nil|symmetry; apply (act_nil n (fun ks => s (f ks)))].
  - cbn [map]. rewrite (act_cons n (hmat s M)). rewrite (hom_proper _ Hs _ _ (act_cons n M Ms f i idx)).
    rewrite hom_nsum by exact Hs. apply nsum_ext. intros k _. rewrite (hom_mul _ Hs).
    rewrite IH by lia. reflexivity.
Qed.

Lemma hmat_mcomp s n M N : hom s -> meq n (hmat s (mcomp n M N)) (mcomp n (hmat s M) (hmat s N)).
Proof.
  intros Hs i k _ _. unfold hmat, mcomp. rewrite hom_nsum by exact Hs. apply nsum_ext. intros j _. apply (hom_mul _ Hs).
Qed.

Lemma hmat_ext s n M N : hom s -> meq n M N -> meq n (hmat s M) (hmat s N).
Proof. intros Hs H i k Hi Hk. unfold hmat. apply (hom_proper _ Hs), H; assumption. Qed.

Lemma hmat_inverse s n f g : hom s -> inverse_fun n f g -> inverse_fun n (hmat s f) (hmat s g).
Proof.
  intros Hs H. apply inverse_fun_meq in H as [H1 H2]. apply inverse_fun_meq.
  split.
  - eapply meq_trans; [apply meq_sym, hmat_mcomp; exact Hs|].
    eapply meq_trans; [apply hmat_ext; [exact Hs|exact H1]|].
    intros i k _ _; apply hom_kdelta; exact Hs.
  - eapply meq_trans; [apply meq_sym, hmat_mcomp; exact Hs|].
    eapply meq_trans; [apply hmat_ext; [exact Hs|exact H2]|].
    intros i k _ _; apply hom_kdelta; exact Hs.
Qed.

Lemma hom_subs_seq {SL : SubsLaws A} rules : hom (subs_seq rules).
Proof.
  unfold subs_seq. induction rules as [|rl rules IH]; [apply hom_id|]. cbn [fold_left].
  apply (hom_comp (fun x => fold_left (fun y r => ksub1 (fst r) (snd r) y) rules x) (ksub1 (fst rl) (snd rl))); [exact IH|].
  constructor.
  - intros x y H. apply ksub1_proper; [reflexivity|exact H].
  - intros x y. apply ksub1_add.
  - intros x y. apply ksub1_mul.
  - apply ksub1_1.
Qed.

(** ** Change of coordinates *)

Lemma transform_spec n J Jinv rules zs a :
  cubic n a -> square n J -> square n Jinv -> valid_cfg zs -> length zs = rank a ->
  exists b, transform J Jinv rules (rank a) zs a = Ok b /\ awf b /\ shape b = shape a /\
    forall idx, inb (shape a) idx = true ->
      exists x, x == act n (map (jac (mfun J) (mfun Jinv)) zs) (aget a) idx /\
                aget b idx == subs_seq rules x.
Proof.
  intros Hc HJ HJi Hv Hl. unfold transform.
  destruct (jac_contract_spec n J Jinv zs a Hc HJ HJi Hv Hl) as (t & Et & Wt & St & Gt).
  rewrite Et. cbn [rbind]. destruct (subs_rules_spec rules t Wt) as (Ws & Ss & Gs).
  eexists. split; [reflexivity|]. split; [apply awf_amap; exact Ws|]. split; [cbn; congruence|].
  intros idx Hidx. exists (aget t idx). split; [apply Gt; exact Hidx|].
  rewrite aget_amap; [|exact Ws|rewrite Ss, St; exact Hidx].
  rewrite simp_ok. rewrite Gs by (rewrite St; exact Hidx). reflexivity.
Qed.

Lemma transform_hom {SL : SubsLaws A} n J Jinv rules zs a :
  cubic n a -> square n J -> square n Jinv -> valid_cfg zs -> length zs = rank a ->
  exists b, transform J Jinv rules (rank a) zs a = Ok b /\ awf b /\ shape b = shape a /\
    (forall idx, inb (shape a) idx = true ->
      aget b idx == subs_seq rules (act n (map (jac (mfun J) (mfun Jinv)) zs) (aget a) idx)) /\
    forall idx, inb (shape a) idx = true ->
      aget b idx == act n (map (jac (hmat (subs_seq rules) (mfun J)) (hmat (subs_seq rules) (mfun Jinv))) zs)
                          (fun ks => subs_seq rules (aget a ks)) idx.
Proof.
  intros Hc HJ HJi Hv Hl.
  destruct (transform_spec n J Jinv rules zs a Hc HJ HJi Hv Hl) as (b & Eb & Wb & Sb & Gb).
  exists b. split; [exact Eb|]. split; [exact Wb|]. split; [exact Sb|].
  assert (G1 : forall idx, inb (shape a) idx = true ->
      aget b idx == subs_seq rules (act n (map (jac (mfun J) (mfun Jinv)) zs) (aget a) idx)).
  { intros idx Hidx. destruct (Gb idx Hidx) as (x & Hx & Hb). rewrite Hb.
    apply (hom_proper _ (hom_subs_seq rules)). exact Hx. }
  split; [exact G1|]. intros idx Hidx. rewrite G1 by exact Hidx.
  destruct Hc as [Wa Sa]. rewrite Sa in Hidx. apply inb_rng in Hidx as [Hli Hri].
  rewrite hom_act; [|apply hom_subs_seq|rewrite map_length; lia].
  rewrite map_map. apply act_mext; [rewrite map_length; lia|exact Hri|].
  clear - L. induction zs as [|z zs IH]; cbn; constructor; [|exact IH].
  unfold jac, hmat. destruct (z =? 1)%Z; apply meq_refl.
Qed.

Lemma act_aeq n zs (F : Z -> nat -> nat -> K) f g r idx :
  length zs = r -> inb (repeat n r) idx = true ->
  (forall ks, inb (repeat n r) ks = true -> f ks == g ks) ->
  act n (map F zs) f idx == act n (map F zs) g idx.
Proof.
  intros Hl Hi H. apply inb_rng in Hi as [H1 H2].
  apply act_ext; [rewrite map_length; lia|exact H2|]. intros ks K1 K2. apply H, inb_rng. split; [lia|exact K2].
Qed.

Lemma act_comp_map n zs (F G H : Z -> nat -> nat -> K) f idx :
  length zs = length idx -> rng n idx ->
  (forall z, In z zs -> meq n (mcomp n (F z) (G z)) (H z)) ->
  act n (map F zs) (act n (map G zs) f) idx == act n (map H zs) f idx.
Proof.
  intros Hl Hr HH. rewrite act_comp by (rewrite map_length; exact Hl).
  apply act_mext; [rewrite map_length, combine_length, !map_length; lia|exact Hr|].
  clear Hl. induction zs as [|z zs IH]; cbn; constructor.
  - apply HH; left; reflexivity.
  - apply IH. intros w Hw; apply HH; right; exact Hw.
Qed.

(** Two changes in a row. *)
Lemma transform_composition {SL : SubsLaws A} n J1 Ji1 R1 J2 Ji2 R2 J3 Ji3 R3 zs a :
  cubic n a -> square n J1 -> square n Ji1 -> square n J2 -> square n Ji2 -> square n J3 -> square n Ji3 ->
  valid_cfg zs -> length zs = rank a ->
  (forall i k, (i < n)%nat -> (k < n)%nat ->
     nsum n (fun j => subs_seq R2 (subs_seq R1 (aget J1 [i; j])) * subs_seq R2 (aget J2 [j; k]))
       == subs_seq R3 (aget J3 [i; k])) ->
  (forall i k, (i < n)%nat -> (k < n)%nat ->
     nsum n (fun j => subs_seq R2 (aget Ji2 [i; j]) * subs_seq R2 (subs_seq R1 (aget Ji1 [j; k])))
       == subs_seq R3 (aget Ji3 [i; k])) ->
  (forall idx, inb (shape a) idx = true -> subs_seq R2 (subs_seq R1 (aget a idx)) == subs_seq R3 (aget a idx)) ->
  exists b c d, transform J1 Ji1 R1 (rank a) zs a = Ok b /\ transform J2 Ji2 R2 (rank a) zs b = Ok c /\
    transform J3 Ji3 R3 (rank a) zs a = Ok d /\ aeq c d.
Proof.
  intros Hc HJ1 HI1 HJ2 HI2 HJ3 HI3 Hv Hl Hlow Hup Ha.
  destruct (transform_hom n J1 Ji1 R1 zs a Hc HJ1 HI1 Hv Hl) as (b & Eb & Wb & Sb & Gb0 & Gb).
  assert (Hrb : rank b = rank a) by (unfold rank; rewrite Sb; reflexivity).
  assert (Hcb : cubic n b) by (split; [exact Wb|rewrite Hrb, Sb; apply Hc]).
  destruct (transform_hom n J2 Ji2 R2 zs b Hcb HJ2 HI2 Hv ltac:(lia)) as (c & Ec & Wc & Sc & Gc0 & Gc).
  rewrite Hrb in Ec.
  destruct (transform_hom n J3 Ji3 R3 zs a Hc HJ3 HI3 Hv Hl) as (d & Ed & Wd & Sd & Gd0 & Gd).
  exists b, c, d. split; [exact Eb|]. split; [exact Ec|]. split; [exact Ed|]. split; [congruence|].
  intros idx Hidx. rewrite Sc, Sb in Hidx. rewrite Gc by (rewrite Sb; exact Hidx). rewrite Gd by exact Hidx.
  destruct Hc as [Wa Sa]. rewrite Sa in Hidx, Ha, Gb. destruct (proj1 (inb_rng _ _ _) Hidx) as [Hli Hri].
  set (s1 := subs_seq R1) in *. set (s2 := subs_seq R2) in *. set (s3 := subs_seq R3) in *.
  assert (H2 : hom s2) by apply hom_subs_seq.
  transitivity (act n (map (jac (hmat s2 (mfun J2)) (hmat s2 (mfun Ji2))) zs)
     (act n (map (jac (hmat s2 (hmat s1 (mfun J1))) (hmat s2 (hmat s1 (mfun Ji1)))) zs) (fun ks => s2 (s1 (aget a ks)))) idx).
  - eapply act_aeq; [exact Hl|exact Hidx|]. intros ks Hks.
    rewrite (hom_proper _ H2 _ _ (Gb ks Hks)). destruct (proj1 (inb_rng _ _ _) Hks) as [Hlk Hrk].
    rewrite hom_act; [|exact H2|rewrite map_length; lia]. rewrite map_map.
    apply act_mext; [rewrite map_length; lia|exact Hrk|].
    clear - L. induction zs as [|z zs IH]; cbn; constructor; [|exact IH].
    unfold jac, hmat. destruct (z =? 1)%Z; apply meq_refl.
  - rewrite (act_comp_map n zs _ _ (jac (hmat s3 (mfun J3)) (hmat s3 (mfun Ji3)))); [|lia|exact Hri|].
    + eapply act_aeq; [exact Hl|exact Hidx|]. exact Ha.
    + intros z Hz. unfold jac, hmat, mfun, mcomp. destruct (z =? 1)%Z.
      * intros i k Hi Hk. apply Hup; assumption.
      * intros i k Hi Hk. rewrite <- Hlow by assumption. apply nsum_ext. intros j _. ring.
Qed.

Lemma transform_undone {SL : SubsLaws A} n J1 Ji1 R1 J2 Ji2 R2 zs a :
  cubic n a -> square n J1 -> square n Ji1 -> square n J2 -> square n Ji2 ->
  valid_cfg zs -> length zs = rank a ->
  (forall i k, (i < n)%nat -> (k < n)%nat ->
     nsum n (fun j => subs_seq R2 (subs_seq R1 (aget J1 [i; j])) * subs_seq R2 (aget J2 [j; k])) == kdelta i k) ->
  (forall i k, (i < n)%nat -> (k < n)%nat ->
     nsum n (fun j => subs_seq R2 (aget Ji2 [i; j]) * subs_seq R2 (subs_seq R1 (aget Ji1 [j; k]))) == kdelta i k) ->
  (forall idx, inb (shape a) idx = true -> subs_seq R2 (subs_seq R1 (aget a idx)) == aget a idx) ->
  exists b c, transform J1 Ji1 R1 (rank a) zs a = Ok b /\ transform J2 Ji2 R2 (rank a) zs b = Ok c /\ aeq c a.
Proof.
  intros Hc HJ1 HI1 HJ2 HI2 Hv Hl Hlow Hup Ha.
  destruct (transform_composition n J1 Ji1 R1 J2 Ji2 R2 (eye n) (eye n) [] zs a Hc HJ1 HI1 HJ2 HI2 (square_eye n) (square_eye n) Hv Hl)
    as (b & c & d & Eb & Ec & Ed & H).
  - intros i k Hi Hk. rewrite Hlow by assumption. cbn [subs_seq fold_left]. rewrite aget_eye by assumption. reflexivity.
  - intros i k Hi Hk. rewrite Hup by assumption. cbn [subs_seq fold_left]. rewrite aget_eye by assumption. reflexivity.
  - exact Ha.
  - exists b, c. split; [exact Eb|]. split; [exact Ec|]. rewrite H.
    destruct (transform_hom n (eye n) (eye n) [] zs a Hc (square_eye n) (square_eye n) Hv Hl) as (d' & Ed' & Wd & Sd & _ & Gd).
    assert (d = d') by (assert (Q : Ok d = Ok d') by (rewrite <- Ed; exact Ed'); injection Q; auto). subst d'. split; [exact Sd|]. intros idx Hidx. rewrite Sd in Hidx.
    rewrite Gd by exact Hidx. cbn [subs_seq fold_left]. destruct Hc as [Wa Sa]. rewrite Sa in Hidx. apply inb_rng in Hidx as [Hli Hri].
    rewrite act_id; [reflexivity|rewrite map_length; lia|exact Hri|].
    apply Forall_forall. intros M HM. apply in_map_iff in HM as (z & <- & _).
    unfold jac, hmat, mfun. destruct (z =? 1)%Z; intros i k Hi Hk; cbn [subs_seq fold_left]; rewrite aget_eye by assumption; [reflexivity|].
    rewrite kdelta_sym. reflexivity.
Qed.

(** ** Coordinate change and raising or lowering commute *)

Lemma act2 n M N f i j :
  act n [M; N] f [i; j] == nsum n (fun k => nsum n (fun l => M i k * N j l * f [k; l])).
Proof.
  rewrite act_cons. apply nsum_ext. intros k _. rewrite act_cons, <- nsum_scale.
  apply nsum_ext. intros l _. rewrite act_nil. ring.
Qed.

(** Matrix form of a transformed rank 2 array: M a N^T. *)
Lemma act2_mcomp n M N f :
  meq n (fun i j => act n [M; N] f [i; j]) (mcomp n M (mcomp n (fun k l => f [k; l]) (mtr N))).
Proof.
  intros i j _ _. rewrite act2. unfold mcomp. apply nsum_ext. intros k _.
  rewrite <- nsum_scale. apply nsum_ext. intros l _. unfold mtr. ring.
Qed.

Lemma square_in n (m : arr) i j : square n m -> (i < n)%nat -> (j < n)%nat -> inb (shape m) [i; j] = true.
Proof.
  intros [_ H] Hi Hj. rewrite H. cbn [inb]. destruct (Nat.ltb_spec i n); [|lia]. destruct (Nat.ltb_spec j n); [|lia]. reflexivity.
Qed.

Lemma transform_metric {SL : SubsLaws A} n J Jinv rules g :
  square n g -> square n J -> square n Jinv ->
  exists g', transform J Jinv rules 2 [-1; -1]%Z g = Ok g' /\ square n g' /\
    let s := subs_seq rules in
    meq n (mfun g') (mcomp n (mtr (hmat s (mfun J))) (mcomp n (hmat s (mfun g)) (hmat s (mfun J)))).
Proof.
  intros Hg HJ HJi. destruct (proj1 (square_cubic n g) Hg) as [Hc Hr].
  destruct (transform_hom n J Jinv rules [-1; -1]%Z g Hc HJ HJi) as (g' & E & W & S & _ & G).
  - repeat constructor; right; reflexivity.
  - rewrite Hr; reflexivity.
  - rewrite Hr in E. exists g'. split; [exact E|]. split; [split; [exact W|rewrite S; apply Hg]|]. cbn zeta.
    intros i j Hi Hj. unfold mfun at 1. rewrite G by (apply (square_in n); assumption).
    cbn [map jac Z.eqb]. rewrite (act2_mcomp n _ _ _ i j Hi Hj). reflexivity.
Qed.

(** The metric of the new coordinates is invertible. *)
Lemma transform_metric_inverse {SL : SubsLaws A} n J Jinv rules g gi g' :
  square n g -> square n J -> square n Jinv ->
  inverse_fun n (mfun g) (mfun gi) -> inverse_fun n (mfun J) (mfun Jinv) ->
  transform J Jinv rules 2 [-1; -1]%Z g = Ok g' ->
  let s := subs_seq rules in
  inverse_fun n (mfun g') (mcomp n (hmat s (mfun Jinv)) (mcomp n (hmat s (mfun gi)) (mtr (hmat s (mfun Jinv))))).
Proof.
  intros Hg HJ HJi Hinv HJinv E s.
  destruct (transform_metric n J Jinv rules g Hg HJ HJi) as (g'' & E' & _ & H). cbn zeta in H.
  assert (g'' = g') by congruence. subst g''. fold s in H.
  assert (Hs : hom s) by apply hom_subs_seq.
  assert (HJs := hmat_inverse s n _ _ Hs HJinv). assert (Hgs := hmat_inverse s n _ _ Hs Hinv).
  eapply inverse_ext; [apply meq_sym; exact H| |].
  2:{ apply inverse_comp; [apply inverse_tr; exact HJs|]. apply inverse_comp; [exact Hgs|exact HJs]. }
  intros i k Hi Hk. rewrite (mcomp_assoc n _ _ _ i k Hi Hk). reflexivity.
Qed.

Lemma transform_raise_lower {SL : SubsLaws A} n J Jinv rules g gi g' gi' src tgt a :
  (1 <= n)%nat -> square n J -> square n Jinv -> square n g -> square n gi -> square n gi' ->
  inverse_fun n (mfun J) (mfun Jinv) -> inverse_fun n (mfun g) (mfun gi) ->
  transform J Jinv rules 2 [-1; -1]%Z g = Ok g' -> inverse_fun n (mfun g') (mfun gi') ->
  valid_cfg src -> valid_cfg tgt -> cubic n a -> length src = rank a -> length tgt = rank a ->
  exists b c b' c', raise_lower g gi src tgt a = Ok b /\ transform J Jinv rules (rank a) tgt b = Ok c /\
    transform J Jinv rules (rank a) src a = Ok b' /\ raise_lower g' gi' src tgt b' = Ok c' /\ aeq c c'.
Proof.
  intros Hn HJ HJi Hg Hgi Hgi' IJ Ig Eg' Ig' Vs Vt Hc Ls Lt.
  destruct (raise_lower_spec n g gi src tgt a Hn Hg Hgi Vs Vt Hc Ls Lt) as (b & Eb & Wb & Sb & Gb).
  assert (Hrb : rank b = rank a) by (unfold rank; rewrite Sb; reflexivity).
  assert (Hcb : cubic n b) by (split; [exact Wb|rewrite Hrb, Sb; apply Hc]).
  destruct (transform_hom n J Jinv rules tgt b Hcb HJ HJi Vt ltac:(lia)) as (c & Ec & Wc & Sc & _ & Gc).
  rewrite Hrb in Ec.
  destruct (transform_hom n J Jinv rules src a Hc HJ HJi Vs Ls) as (b' & Eb' & Wb' & Sb' & _ & Gb').
  assert (Hrb' : rank b' = rank a) by (unfold rank; rewrite Sb'; reflexivity).
  assert (Hcb' : cubic n b') by (split; [exact Wb'|rewrite Hrb', Sb'; apply Hc]).
  destruct (transform_metric n J Jinv rules g Hg HJ HJi) as (g'' & E' & Sqg' & Hg'). cbn zeta in Hg'.
  assert (g'' = g') by congruence. subst g''. clear E'.
  destruct (raise_lower_spec n g' gi' src tgt b' Hn Sqg' Hgi' Vs Vt Hcb' ltac:(lia) ltac:(lia)) as (c' & Ec' & Wc' & Sc' & Gc').
  exists b, c, b', c'. split; [exact Eb|]. split; [exact Ec|]. split; [exact Eb'|]. split; [exact Ec'|].
  split; [congruence|]. intros idx Hidx. rewrite Sc, Sb in Hidx.
  rewrite Gc by (rewrite Sb; exact Hidx). rewrite Gc' by (rewrite Sb'; exact Hidx).
  destruct Hc as [Wa Sa]. rewrite Sa in Hidx, Gb, Gb'. destruct (proj1 (inb_rng _ _ _) Hidx) as [Hli Hri].
  set (s := subs_seq rules) in *. assert (Hs : hom s) by apply hom_subs_seq.
  (* left side *)
  transitivity (act n (map (jac (hmat s (mfun J)) (hmat s (mfun Jinv))) tgt)
    (act n (map (fun st => hmat s (conv (mfun g) (mfun gi) (fst st) (snd st))) (combine src tgt)) (fun ks => s (aget a ks))) idx).
  { eapply act_aeq; [exact Lt|exact Hidx|]. intros ks Hks. rewrite (hom_proper _ Hs _ _ (Gb ks Hks)).
    destruct (proj1 (inb_rng _ _ _) Hks) as [Hlk Hrk].
    rewrite hom_act; [|exact Hs|rewrite map_length, combine_length; lia]. rewrite map_map. reflexivity. }
  rewrite act_comp by (rewrite map_length, ?combine_length; lia).
  (* right side *)
  rewrite (act_ext n _ (aget b') (act n (map (jac (hmat s (mfun J)) (hmat s (mfun Jinv))) src) (fun ks => s (aget a ks))));
    [|rewrite map_length, combine_length; lia|exact Hri|].
  2:{ intros ks K1 K2. apply Gb'. apply inb_rng. split; [lia|exact K2]. }
  rewrite act_comp by (rewrite map_length, ?combine_length; lia).
  apply act_mext; [rewrite !map_length, !combine_length, !map_length, !combine_length; lia|exact Hri|].
  (* one index *)
  assert (Hgi'' : meq n (mfun gi') (mcomp n (hmat s (mfun Jinv)) (mcomp n (hmat s (mfun gi)) (mtr (hmat s (mfun Jinv)))))).
  { assert (H := transform_metric_inverse n J Jinv rules g gi g' Hg HJ HJi Ig IJ Eg'). cbn zeta in H. fold s in H.
    apply inverse_fun_meq in H as [H1 H2]. apply inverse_fun_meq in Ig' as [I1 I2].
    eapply inverse_unique; [exact I2|exact H1]. }
  assert (HJs := hmat_inverse s n _ _ Hs IJ). apply inverse_fun_meq in HJs as [JJ1 JJ2].
  assert (HJt := inverse_tr n _ _ (hmat_inverse s n _ _ Hs IJ)). apply inverse_fun_meq in HJt as [JT1 JT2].
  assert (One : forall z w, (z = 1 \/ z = -1)%Z -> (w = 1 \/ w = -1)%Z ->
     meq n (mcomp n (jac (hmat s (mfun J)) (hmat s (mfun Jinv)) w) (hmat s (conv (mfun g) (mfun gi) z w)))
           (mcomp n (conv (mfun g') (mfun gi') z w) (jac (hmat s (mfun J)) (hmat s (mfun Jinv)) z))).
  { assert (Hd : meq n (hmat s kdelta) kdelta) by (intros i k _ _; apply hom_kdelta; exact Hs).
    assert (Hid : forall M, meq n (mcomp n M (hmat s kdelta)) (mcomp n kdelta M)).
    { intros M. eapply meq_trans; [apply mcomp_ext; [apply meq_refl|exact Hd]|].
      eapply meq_trans; [apply mcomp_delta_r|]. apply meq_sym, mcomp_delta_l. }
    intros z w [-> | ->] [-> | ->]; cbn [jac conv Z.eqb Pos.eqb].
    - apply Hid.
    - (* lowering *)
      apply meq_sym. eapply meq_trans; [apply mcomp_ext; [exact Hg'|apply meq_refl]|].
      eapply meq_trans; [apply mcomp_assoc|]. apply mcomp_ext; [intros i k _ _; reflexivity|].
      apply mcomp_cancel_r. exact JJ1.
    - (* raising *)
      apply meq_sym. eapply meq_trans; [apply mcomp_ext; [exact Hgi''|apply meq_refl]|].
      eapply meq_trans; [apply mcomp_assoc|]. apply mcomp_ext; [apply meq_refl|].
      apply mcomp_cancel_r. exact JT2.
    - apply Hid. }
  clear - L One Vs Vt Ls Lt. assert (Hl : length src = length tgt) by congruence. clear Ls Lt a.
  revert tgt Vt Hl; induction Vs as [|z src Hz Vs IH]; intros [|w tgt] Vt Hl; cbn in Hl; try discriminate; cbn; [constructor|].
  inversion Vt as [|w' t' Hw Vt' E]; subst. constructor; [apply One; assumption|]. apply IH; [exact Vt'|lia].
Qed.

(** ** Full contractions *)

Lemma act_pair n Ms Ns f g r :
  length Ms = r -> length Ns = r ->
  Forall2 (fun M N => forall k l, (k < n)%nat -> (l < n)%nat -> nsum n (fun i => M i k * N i l) == kdelta k l) Ms Ns ->
  lsum (tuples n r) (fun idx => act n Ms f idx * act n Ns g idx) == lsum (tuples n r) (fun ks => f ks * g ks).
Proof.
  intros HM HN H. revert r HM HN f g. induction H as [|M N Ms Ns HMN H IH]; intros [|r] HM HN f g; try discriminate.
  - cbn [tuples lsum]. rewrite !act_nil. reflexivity.
  - cbn [length] in HM, HN. rewrite !lsum_tuples_S.
    transitivity (nsum n (fun i => lsum (tuples n r) (fun idx =>
       nsum n (fun k => nsum n (fun l => M i k * N i l * (act n Ms (fun ks => f (k :: ks)) idx * act n Ns (fun ls => g (l :: ls)) idx)))))).
    { apply nsum_ext. intros i _. apply lsum_ext. intros idx _. rewrite !act_cons.
      rewrite <- nsum_scale_r. apply nsum_ext. intros k _. rewrite <- nsum_scale. apply nsum_ext. intros l _. ring. }
    transitivity (nsum n (fun k => nsum n (fun l => nsum n (fun i => M i k * N i l) *
       lsum (tuples n r) (fun idx => act n Ms (fun ks => f (k :: ks)) idx * act n Ns (fun ls => g (l :: ls)) idx)))).
    { transitivity (nsum n (fun i => nsum n (fun k => nsum n (fun l => M i k * N i l *
         lsum (tuples n r) (fun idx => act n Ms (fun ks => f (k :: ks)) idx * act n Ns (fun ls => g (l :: ls)) idx))))).
      - apply nsum_ext. intros i _. unfold nsum at 1. rewrite lsum_swap. apply nsum_ext. intros k _.
        unfold nsum at 1. rewrite lsum_swap. apply nsum_ext. intros l _. apply lsum_scale.
      - rewrite nsum_swap. apply nsum_ext. intros k _. rewrite nsum_swap. apply nsum_ext. intros l _.
        apply nsum_scale_r. }
    apply nsum_ext. intros k Hk. rewrite (nsum_one n k); [|exact Hk|].
    + rewrite (HMN k k Hk Hk), kdelta_same, IH by lia. ring.
    + intros l Hl Hne. rewrite (HMN k l Hk Hl), kdelta_diff by congruence. ring.
Qed.

Lemma place_full r ks : length ks = r -> place r (seq 0 r) ks [] = ks.
Proof.
  intros H. apply (nth_ext _ _ 0%nat 0%nat); [rewrite length_place; lia|]. rewrite length_place. intros q Hq.
  rewrite nth_place by exact Hq.
  assert (E : index_of Nat.eqb q (seq 0 r) = Some q).
  { assert (G := index_of_nth (seq 0 r) q (seq_NoDup r 0)). rewrite seq_length in G. specialize (G Hq).
    rewrite nth_seq_lt in G by exact Hq. exact G. }
  rewrite E. reflexivity.
Qed.

Definition all_pairs (r : nat) : list (Z * Z) := map (fun i => (Z.of_nat i, Z.of_nat i)) (seq 0 r).

Lemma all_pairs_valid r : valid_pairs r r (all_pairs r).
Proof.
  unfold all_pairs. split; [|split].
  - apply Forall_forall. intros p Hp. apply in_map_iff in Hp as (i & <- & Hi). apply in_seq in Hi. cbn. lia.
  - rewrite map_map. cbn. apply FinFun.Injective_map_NoDup; [intros x y; apply Nat2Z.inj|apply seq_NoDup].
  - rewrite map_map. cbn. apply FinFun.Injective_map_NoDup; [intros x y; apply Nat2Z.inj|apply seq_NoDup].
Qed.

Lemma full_contract_spec n a b :
  (1 <= n)%nat -> cubic n a -> cubic n b -> rank a = rank b ->
  exists s, contract a b (all_pairs (rank a)) = Ok s /\ shape s = [] /\
    aget s [] == lsum (tuples n (rank a)) (fun ks => aget a ks * aget b ks).
Proof.
  intros Hn Ha Hb Hr.
  assert (Hv : valid_pairs (rank a) (rank b) (all_pairs (rank a))) by (rewrite <- Hr; apply all_pairs_valid).
  destruct (contract_spec n a b _ Hn Ha Hb Hv) as (s & Es & Ws & Ss & _ & _ & Gs).
  assert (Hlen : length (all_pairs (rank a)) = rank a) by (unfold all_pairs; rewrite map_length, seq_length; reflexivity).
  rewrite Hlen in *. rewrite <- Hr in Ss, Gs. rewrite Nat.sub_diag in Ss, Gs. cbn in Ss.
  exists s. split; [exact Es|]. split; [exact Ss|].
  specialize (Gs [] [] ltac:(split; constructor) ltac:(split; constructor)). cbn [app] in Gs. rewrite Gs.
  apply lsum_ext. intros ks Hks. apply in_tuples in Hks as [Hk _].
  assert (E : forall (f : Z * Z -> Z), (forall i, f (Z.of_nat i, Z.of_nat i) = Z.of_nat i) -> map (fun p => Z.to_nat (f p)) (all_pairs (rank a)) = seq 0 (rank a)).
  { intros f Hf. unfold all_pairs. rewrite map_map. rewrite (map_ext _ (fun i => i)); [apply map_id|].
    intros i. rewrite Hf, Nat2Z.id. reflexivity. }
  rewrite (E fst) by reflexivity. rewrite (E snd) by reflexivity. rewrite place_full by exact Hk. reflexivity.
Qed.

Lemma scalar_invariant {SL : SubsLaws A} n J Jinv rules zs a b :
  (1 <= n)%nat -> cubic n a -> cubic n b -> rank a = rank b -> square n J -> square n Jinv ->
  inverse_fun n (mfun J) (mfun Jinv) -> valid_cfg zs -> length zs = rank a ->
  exists a' b' s s', transform J Jinv rules (rank a) zs a = Ok a' /\
    transform J Jinv rules (rank b) (map Z.opp zs) b = Ok b' /\
    contract a b (all_pairs (rank a)) = Ok s /\ contract a' b' (all_pairs (rank a)) = Ok s' /\
    shape s = [] /\ shape s' = [] /\ aget s' [] == subs_seq rules (aget s []).
Proof.
  intros Hn Ha Hb Hr HJ HJi Hinv Hv Hl.
  assert (Hv' : valid_cfg (map Z.opp zs)).
  { clear - Hv. induction Hv as [|z zs [-> | ->] Hv IH]; cbn; constructor; (assumption || (right; reflexivity) || (left; reflexivity)). }
  destruct (transform_hom n J Jinv rules zs a Ha HJ HJi Hv Hl) as (a' & Ea & Wa & Sa & _ & Ga).
  destruct (transform_hom n J Jinv rules (map Z.opp zs) b Hb HJ HJi Hv' ltac:(rewrite map_length; lia)) as (b' & Eb & Wb & Sb & _ & Gb).
  assert (Ra : rank a' = rank a) by (unfold rank; rewrite Sa; reflexivity).
  assert (Rb : rank b' = rank b) by (unfold rank; rewrite Sb; reflexivity).
  assert (Ca : cubic n a') by (split; [exact Wa|rewrite Ra, Sa; apply Ha]).
  assert (Cb : cubic n b') by (split; [exact Wb|rewrite Rb, Sb; apply Hb]).
  destruct (full_contract_spec n a b Hn Ha Hb Hr) as (s & Es & Ss & Gs).
  destruct (full_contract_spec n a' b' Hn Ca Cb ltac:(congruence)) as (s' & Es' & Ss' & Gs').
  rewrite Ra in Es', Gs'. exists a', b', s, s'. repeat (split; [assumption|]).
  assert (Hs := hom_subs_seq rules). set (sg := subs_seq rules) in *.
  rewrite Gs', (hom_proper _ Hs _ _ Gs), hom_lsum by exact Hs.
  destruct Ha as [Wa0 Sa0], Hb as [Wb0 Sb0].
  transitivity (lsum (tuples n (rank a)) (fun idx =>
      act n (map (jac (hmat sg (mfun J)) (hmat sg (mfun Jinv))) zs) (fun ks => sg (aget a ks)) idx *
      act n (map (jac (hmat sg (mfun J)) (hmat sg (mfun Jinv))) (map Z.opp zs)) (fun ks => sg (aget b ks)) idx)).
  { apply lsum_ext. intros idx Hidx. rewrite tuples_all_idx in Hidx. apply in_all_idx in Hidx.
    rewrite Ga by (rewrite Sa0; exact Hidx). rewrite Gb by (rewrite Sb0, <- Hr; exact Hidx). reflexivity. }
  rewrite act_pair.
  - apply lsum_ext. intros ks _. rewrite (hom_mul _ Hs). reflexivity.
  - rewrite map_length; exact Hl.
  - rewrite !map_length; exact Hl.
  - assert (HJs := hmat_inverse sg n _ _ Hs Hinv). destruct HJs as [H1 H2].
    clear - Hv H1 H2 L. induction Hv as [|z zs Hz Hv IH]; cbn; constructor; [|exact IH].
    intros k l Hk Hlt. destruct Hz as [-> | ->]; cbn [jac Z.eqb Z.opp Pos.eqb].
    + rewrite kdelta_sym, <- (H1 l k Hlt Hk). apply nsum_ext. intros i _. ring.
    + apply (H1 k l Hk Hlt).
Qed.

End TensorP.
