(** Raising and lowering indices: Tensor.py _raise_lower read as a matrix per index. *)
From Verif Require Import Alg Alg_P Arr Arr_P Arr2_P UtilsM Utils_P Spec Act_P TensorM.
From Coq Require Import Permutation.
Local Open Scope K_scope.

Lemma ins_nth_split {X} i (x : X) l : (i <= length l)%nat -> ins_nth i x l = firstn i l ++ x :: skipn i l.
Proof.
  revert i; induction l as [|y l IH]; intros [|i] H; cbn in *; try reflexivity.
  rewrite IH by lia. reflexivity.
Qed.

Lemma del_nth_split {X} i (l : list X) : del_nth i l = firstn i l ++ skipn (S i) l.
Proof.
  revert i; induction l as [|y l IH]; intros [|i]; cbn; try reflexivity.
  rewrite IH. destruct l; reflexivity.
Qed.

Lemma set_nth_split {X} i (x : X) l : (i < length l)%nat -> set_nth i x l = firstn i l ++ x :: skipn (S i) l.
Proof.
  revert i; induction l as [|y l IH]; intros [|i] H; cbn in *; try reflexivity; try lia.
  rewrite IH by lia. destruct l; reflexivity.
Qed.

Lemma length_del_nth {X} i (l : list X) : (i < length l)%nat -> length (del_nth i l) = (length l - 1)%nat.
Proof. intros H. rewrite del_nth_split, app_length, firstn_length, skipn_length. lia. Qed.

Lemma split_nth {X} i (l : list X) d : (i < length l)%nat -> l = firstn i l ++ nth i l d :: skipn (S i) l.
Proof.
  revert i; induction l as [|y l IH]; intros [|i] H; cbn in *; try reflexivity; try lia.
  f_equal. apply IH. lia.
Qed.

Lemma rl_order_perm r i : (i < r)%nat -> Permutation (rl_order r i) (seq 0 r).
Proof.
  intros H. unfold rl_order. rewrite ins_nth_split by (rewrite seq_length; lia).
  destruct r as [|r]; [lia|]. cbn [seq]. replace (S r - 1)%nat with r by lia.
  symmetry. apply Permutation_cons_app. rewrite firstn_skipn. reflexivity.
Qed.

Lemma nth_seq_lt s m k : (k < m)%nat -> nth k (seq s m) 0%nat = (s + k)%nat.
Proof. intros; apply seq_nth; assumption. Qed.

Lemma unperm_rl_order r i idx :
  (i < r)%nat -> length idx = r ->
  unperm (rl_order r i) idx = nth i idx 0%nat :: del_nth i idx.
Proof.
  intros Hi Hl. apply (unperm_unique _ _ r).
  - apply rl_order_perm; exact Hi.
  - cbn. rewrite length_del_nth; lia.
  - exact Hl.
  - intros k Hk. unfold rl_order. rewrite ins_nth_split by (rewrite seq_length; lia).
    assert (Hf : length (firstn i (seq 1 (r - 1))) = i) by (rewrite firstn_length, seq_length; lia).
    assert (Hd : forall j, nth j (del_nth i idx) 0%nat = if (j <? i)%nat then nth j idx 0%nat else nth (S j) idx 0%nat).
    { intros j. rewrite del_nth_split. destruct (Nat.ltb_spec j i).
      - rewrite app_nth1 by (rewrite firstn_length; lia).
        rewrite (split_nth i idx 0%nat) at 2 by lia.
        rewrite app_nth1 by (rewrite firstn_length; lia). reflexivity.
      - rewrite app_nth2 by (rewrite firstn_length; lia). rewrite firstn_length.
        rewrite (split_nth i idx 0%nat) at 3 by lia.
        rewrite app_nth2 by (rewrite firstn_length; lia). rewrite firstn_length.
        replace (S j - Nat.min i (length idx))%nat with (S (j - Nat.min i (length idx))) by lia. reflexivity. }
    destruct (Nat.lt_trichotomy k i) as [H|[H|H]].
    + rewrite app_nth1 by lia.
      assert (E : nth k (firstn i (seq 1 (r - 1))) 0%nat = S k).
      { transitivity (nth k (seq 1 (r - 1)) 0%nat); [|rewrite nth_seq_lt; lia].
        rewrite <- (firstn_skipn i (seq 1 (r - 1))) at 2. rewrite app_nth1 by lia. reflexivity. }
      rewrite E. cbn [nth]. rewrite Hd. destruct (Nat.ltb_spec k i); [reflexivity|lia].
    + subst k. rewrite app_nth2 by lia. rewrite Hf, Nat.sub_diag. reflexivity.
    + rewrite app_nth2 by lia. rewrite Hf. destruct (k - i)%nat as [|m] eqn:Em; [lia|]. cbn [nth].
      assert (E : nth m (skipn i (seq 1 (r - 1))) 0%nat = S (i + m)).
      { transitivity (nth (i + m) (seq 1 (r - 1)) 0%nat); [|rewrite nth_seq_lt; lia].
        rewrite <- (firstn_skipn i (seq 1 (r - 1))) at 2. rewrite app_nth2 by lia.
        f_equal. lia. }
      rewrite E. cbn [nth]. rewrite Hd. destruct (Nat.ltb_spec (i + m) i); [lia|]. f_equal. lia.
Qed.

Lemma inb_rng n r idx : inb (repeat n r) idx = true <-> length idx = r /\ rng n idx.
Proof.
  revert idx; induction r as [|r IH]; intros [|i idx]; cbn [repeat inb length].
  - split; [intros _; split; [reflexivity|constructor]|reflexivity].
  - split; [discriminate|intros [H _]; discriminate].
  - split; [discriminate|intros [H _]; discriminate].
  - rewrite andb_true_iff, IH, Nat.ltb_lt. split.
    + intros (Hi & Hl & Hr). split; [lia|constructor; assumption].
    + intros (Hl & Hr). inversion Hr; subst. repeat split; (assumption || lia).
Qed.

Lemma rng_set_nth n i k idx : rng n idx -> (k < n)%nat -> rng n (set_nth i k idx).
Proof.
  intros H Hk. revert i; induction H as [|x l Hx Hl IH]; intros [|i]; cbn; repeat constructor; auto.
  apply IH.
Qed.

Lemma rng_nth n i idx : rng n idx -> (i < length idx)%nat -> (nth i idx 0%nat < n)%nat.
Proof. intros H Hi. unfold rng in H. rewrite Forall_forall in H. apply H, nth_In, Hi. Qed.


Lemma rng_app n l l' : rng n (l ++ l') <-> rng n l /\ rng n l'.
Proof. unfold rng. rewrite Forall_app. reflexivity. Qed.

Lemma rng_firstn n i idx : rng n idx -> rng n (firstn i idx).
Proof. intros H. rewrite <- (firstn_skipn i idx) in H. apply rng_app in H. apply H. Qed.

Lemma rng_skipn n i idx : rng n idx -> rng n (skipn i idx).
Proof. intros H. rewrite <- (firstn_skipn i idx) in H. apply rng_app in H. apply H. Qed.

Section RLP.
Context {A : AlgOps} {L : AlgLaws A}.
Add Ring Kring : kring (setoid keq_equiv kring_ext).

Lemma lsum_tuples_1 n (f : list nat -> K) : lsum (tuples n 1) f == nsum n (fun k => f [k]).
Proof. rewrite lsum_tuples_S. apply nsum_ext. intros k _. cbn. ring. Qed.

Lemma square_cubic n (m : arr) : square n m <-> cubic n m /\ rank m = 2%nat.
Proof.
  unfold square, cubic, rank. split.
  - intros [H1 H2]. rewrite H2. repeat split; auto.
  - intros [[H1 H2] H3]. rewrite H3 in H2. split; auto.
Qed.

Lemma rl_step_spec n m acc i :
  (1 <= n)%nat -> cubic n acc -> square n m -> (i < rank acc)%nat ->
  exists b, rl_step acc (i, m) = Ok b /\ awf b /\ shape b = shape acc /\
    forall idx, inb (shape acc) idx = true ->
      aget b idx == nsum n (fun k => aget m [nth i idx 0%nat; k] * aget acc (set_nth i k idx)).
Proof.
  intros Hn Hc Hm Hi. unfold rl_step. cbn [fst snd].
  destruct (rank acc =? 0)%nat eqn:E0; [apply Nat.eqb_eq in E0; lia|]. clear E0.
  apply square_cubic in Hm as [Hm Hrm].
  assert (Hv : valid_pairs (rank m) (rank acc) [(1%Z, Z.of_nat i)]).
  { rewrite Hrm. repeat split; cbn; repeat constructor; cbn; try lia; intros []. }
  destruct (contract_spec n m acc _ Hn Hm Hc Hv) as (c & Ec & Hwc & Hsc & _ & _ & Hgc).
  rewrite Ec. cbn [rbind]. cbn [length] in Hsc, Hgc. rewrite Hrm in Hsc, Hgc.
  assert (Hsc' : shape c = repeat n (rank acc)).
  { rewrite Hsc. f_equal. lia. }
  assert (Hrc : rank c = rank acc) by (unfold rank at 1; rewrite Hsc', repeat_length; reflexivity).
  assert (Hcc : cubic n c) by (split; [exact Hwc|rewrite Hrc; exact Hsc']).
  destruct (permutedims_cubic n c (rl_order (rank acc) i) Hcc) as (b & Eb & Hwb & Hsb & Hgb).
  { rewrite Hrc. apply rl_order_perm; exact Hi. }
  exists b. split; [exact Eb|]. split; [exact Hwb|]. destruct Hc as [Hwa Hsa].
  split; [congruence|].
  intros idx Hidx. rewrite Hsa in Hidx. rewrite Hgb by (rewrite Hsc'; exact Hidx).
  apply inb_rng in Hidx as [Hl Hr].
  rewrite unperm_rl_order by assumption.
  change (nth i idx 0%nat :: del_nth i idx) with ([nth i idx 0%nat] ++ del_nth i idx).
  rewrite Hgc.
  - cbn [map fst snd]. rewrite Nat2Z.id. rewrite lsum_tuples_1. apply nsum_ext. intros k Hk.
    change (Z.to_nat 1) with 1%nat.
    rewrite !place_one by (cbn; rewrite ?length_del_nth; lia). cbn [firstn skipn app].
    apply kmul_proper; [reflexivity|].
    replace (firstn i (del_nth i idx) ++ k :: skipn i (del_nth i idx)) with (set_nth i k idx); [reflexivity|].
    rewrite set_nth_split by lia. rewrite del_nth_split.
    assert (Hf : length (firstn i idx) = i) by (rewrite firstn_length; lia).
    rewrite firstn_app, skipn_app, Hf, Nat.sub_diag. cbn [firstn skipn].
    rewrite app_nil_r. rewrite (firstn_all2 (firstn i idx)) by lia. rewrite (skipn_all2 (firstn i idx)) by lia. reflexivity.
  - split; [reflexivity|]. repeat constructor. apply rng_nth; [exact Hr|lia].
  - split; [rewrite length_del_nth by lia; lia|]. rewrite del_nth_split. apply rng_app.
    split; [apply rng_firstn|apply rng_skipn]; exact Hr.
Qed.

(** The loop over the indices. *)
Lemma rl_loop_spec n mats1 mats acc f r :
  (1 <= n)%nat -> awf acc -> shape acc = repeat n r -> (length mats1 + length mats = r)%nat ->
  Forall (square n) mats ->
  (forall idx, inb (repeat n r) idx = true -> aget acc idx == actp n (map mfun mats1) f idx) ->
  exists b, rfold rl_step (combine (seq (length mats1) (length mats)) mats) acc = Ok b /\
    awf b /\ shape b = repeat n r /\
    forall idx, inb (repeat n r) idx = true -> aget b idx == actp n (map mfun (mats1 ++ mats)) f idx.
Proof.
  intros Hn. revert mats1 acc. induction mats as [|m mats IH]; intros mats1 acc Hw Hs Hl Hm Hf.
  - exists acc. cbn. rewrite app_nil_r. repeat split; assumption.
  - cbn [length seq combine rfold]. cbn [length] in Hl. inversion Hm as [|m' l Hm1 Hms E]; subst m' l.
    assert (Hrk : rank acc = r) by (unfold rank; rewrite Hs, repeat_length; reflexivity).
    destruct (rl_step_spec n m acc (length mats1) Hn) as (b & Eb & Hwb & Hsb & Hgb);
      [split; [exact Hw|rewrite Hrk; exact Hs]|exact Hm1|lia|].
    rewrite Eb. cbn [rbind].
    destruct (IH (mats1 ++ [m]) b Hwb) as (c & Ec & Hwc & Hsc & Hgc).
    + congruence.
    + rewrite app_length; cbn; lia.
    + exact Hms.
    + intros idx Hidx. rewrite Hgb by (rewrite Hs; exact Hidx).
      rewrite map_app. cbn [map]. destruct (proj1 (inb_rng _ _ _) Hidx) as [Hli Hri].
      rewrite actp_snoc by (rewrite map_length; lia). rewrite map_length.
      apply nsum_ext. intros k Hk. unfold mfun at 1. apply kmul_proper; [reflexivity|].
      apply Hf. apply inb_rng. split; [rewrite set_nth_length; exact Hli|].
      apply rng_set_nth; assumption.
    + exists c. rewrite <- app_assoc in Hgc. cbn [app] in Hgc.
      rewrite app_length in Ec. cbn [length] in Ec. rewrite Nat.add_1_r in Ec.
      repeat split; assumption.
Qed.

Lemma square_eye n : square n (eye n).
Proof. split; [apply awf_tab|reflexivity]. Qed.

Lemma aget_eye n i j : (i < n)%nat -> (j < n)%nat -> aget (eye n) [i; j] = kdelta i j.
Proof.
  intros Hi Hj. unfold eye. rewrite aget_tab; [reflexivity|].
  cbn [inb]. destruct (Nat.ltb_spec i n); [|lia]. destruct (Nat.ltb_spec j n); [|lia]. reflexivity.
Qed.

(** The matrices picked for valid configurations. *)
Lemma rl_mats_spec n g gi src tgt :
  square n g -> square n gi -> valid_cfg src -> valid_cfg tgt -> length src = length tgt ->
  let mats := flat_map (fun st => rl_matrix g gi n (fst st) (snd st)) (combine src tgt) in
  length mats = length src /\ Forall (square n) mats /\
  Forall2 (meq n) (map mfun mats) (map (fun st => conv (mfun g) (mfun gi) (fst st) (snd st)) (combine src tgt)).
Proof.
  intros Hg Hgi Hs. revert tgt. induction Hs as [|s src Hs1 Hs IH]; intros [|t tgt] Ht Hl; try discriminate.
  - cbn. repeat split; constructor.
  - inversion Ht as [|t' l Ht1 Ht2 E]; subst. cbn in Hl.
    destruct (IH tgt Ht2 ltac:(lia)) as (H1 & H2 & H3). cbn [combine flat_map map fst snd].
    assert (G : exists m, rl_matrix g gi n s t = [m] /\ square n m /\ meq n (mfun m) (conv (mfun g) (mfun gi) s t)).
    { destruct Hs1 as [-> | ->], Ht1 as [-> | ->]; cbn.
      - exists (eye n). split; [reflexivity|]. split; [apply square_eye|].
        intros i k Hi Hk. unfold mfun. rewrite aget_eye by assumption. reflexivity.
      - exists g. split; [reflexivity|]. split; [exact Hg|]. intros i k _ _. reflexivity.
      - exists gi. split; [reflexivity|]. split; [exact Hgi|]. intros i k _ _. reflexivity.
      - exists (eye n). split; [reflexivity|]. split; [apply square_eye|].
        intros i k Hi Hk. unfold mfun. rewrite aget_eye by assumption. reflexivity. }
    destruct G as (m & Em & Hm1 & Hm2). rewrite Em. cbn [app length map].
    repeat split; [lia| |]; constructor; assumption.
Qed.

Lemma raise_lower_spec n g gi src tgt a :
  (1 <= n)%nat -> square n g -> square n gi -> valid_cfg src -> valid_cfg tgt ->
  cubic n a -> length src = rank a -> length tgt = rank a ->
  exists b, raise_lower g gi src tgt a = Ok b /\ awf b /\ shape b = shape a /\
    forall idx, inb (shape a) idx = true ->
      aget b idx == act n (map (fun st => conv (mfun g) (mfun gi) (fst st) (snd st)) (combine src tgt)) (aget a) idx.
Proof.
  intros Hn Hg Hgi Hvs Hvt Hc Hls Hlt. unfold raise_lower.
  destruct src as [|s src].
  - cbn [combine flat_map length seq rfold rbind]. eexists. split; [reflexivity|].
    destruct Hc as [Hw Hs]. rewrite <- Hls in Hs. cbn in Hs.
    split; [apply awf_amap; exact Hw|]. split; [reflexivity|]. rewrite Hs.
    intros [|i idx] Hidx; [|discriminate]. cbn [map].
    rewrite aget_amap; [|exact Hw|rewrite Hs; reflexivity]. rewrite act_nil. apply simp_ok.
  - assert (Hhd : hd 0%nat (shape a) = n).
    { destruct Hc as [Hw Hs]. rewrite Hs. apply hd_repeat. cbn in Hls; lia. }
    rewrite Hhd.
    destruct (rl_mats_spec n g gi (s :: src) tgt Hg Hgi Hvs Hvt ltac:(lia)) as (H1 & H2 & H3).
    set (mats := flat_map (fun st => rl_matrix g gi n (fst st) (snd st)) (combine (s :: src) tgt)) in *.
    destruct Hc as [Hw Hs].
    destruct (rl_loop_spec n [] mats a (aget a) (rank a) Hn Hw Hs) as (b & Eb & Hwb & Hsb & Hgb).
    + cbn [length plus]. congruence.
    + exact H2.
    + intros idx _. reflexivity.
    + cbn [length app] in Eb, Hgb. rewrite Eb. cbn [rbind]. eexists. split; [reflexivity|].
      split; [apply awf_amap; exact Hwb|]. split; [cbn; congruence|].
      intros idx Hidx. rewrite Hs in Hidx.
      rewrite aget_amap; [|exact Hwb|rewrite Hsb; exact Hidx]. rewrite simp_ok, Hgb by exact Hidx.
      destruct (proj1 (inb_rng _ _ _) Hidx) as [Hli Hri].
      rewrite <- act_actp by (rewrite map_length; lia).
      apply act_mext; [rewrite map_length; lia|exact Hri|exact H3].
Qed.

End RLP.
