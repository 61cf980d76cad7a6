(** Change of coordinates: the tensor product and contraction of BaseTensor.py
    _transform_coordinates read as a Jacobian matrix per index. *)
From Verif Require Import Alg Alg_P Arr Arr_P Arr2_P UtilsM Utils_P Spec Act_P TensorM RL_P.
From Coq Require Import Permutation.
Local Open Scope K_scope.

Lemma find_index_some {X} (p : X -> bool) l q d :
  (q < length l)%nat -> p (nth q l d) = true -> (forall j, (j < q)%nat -> p (nth j l d) = false) ->
  find_index p l = Some q.
Proof.
  revert q; induction l as [|x l IH]; intros q Hq Hp Hj; cbn in Hq; [lia|].
  destruct q as [|q]; cbn in *.
  - rewrite Hp; reflexivity.
  - assert (E := Hj 0%nat ltac:(lia)). cbn in E. rewrite E.
    rewrite (IH q); [reflexivity|lia|exact Hp|]. intros j H. apply (Hj (S j)). lia.
Qed.

Lemma find_index_none {X} (p : X -> bool) l d :
  (forall j, (j < length l)%nat -> p (nth j l d) = false) -> find_index p l = None.
Proof.
  induction l as [|x l IH]; intros H; [reflexivity|]. cbn.
  assert (E := H 0%nat ltac:(cbn; lia)). cbn in E. rewrite E. rewrite IH; [reflexivity|].
  intros j Hj. apply (H (S j)). cbn; lia.
Qed.

Lemma nodupb_true l : nodupb l = true <-> NoDup l.
Proof.
  induction l as [|x l IH]; cbn.
  - split; [constructor|reflexivity].
  - rewrite andb_true_iff, negb_true_iff, IH, existsb_eqb_false. split.
    + intros [H1 H2]; constructor; assumption.
    + intros H; inversion H; auto.
Qed.

Lemma fill_ext_found axes rest ps ks idx :
  (forall k, In k axes -> exists q, find_pair k ps = Some q) ->
  fill (axes ++ rest) ps ks idx =
  map (fun k => match find_pair k ps with Some q => nth q ks 0%nat | None => 0%nat end) axes ++ fill rest ps ks idx.
Proof.
  induction axes as [|k axes IH]; intros H; [reflexivity|].
  cbn [app fill map]. destruct (H k (or_introl eq_refl)) as [q Hq]. rewrite Hq.
  rewrite IH; [reflexivity|]. intros k' Hk; apply H; right; exact Hk.
Qed.

Lemma skipn_nth_cons {X} i (l : list X) d : (i < length l)%nat -> skipn i l = nth i l d :: skipn (S i) l.
Proof.
  revert i; induction l as [|x l IH]; intros [|i] H; cbn in H; try lia; [reflexivity|].
  cbn [skipn nth]. rewrite IH by lia. reflexivity.
Qed.

Lemma map_nth_seq {X} (l : list X) d : map (fun i => nth i l d) (seq 0 (length l)) = l.
Proof.
  induction l as [|x l IH]; [reflexivity|]. cbn [length seq map nth]. f_equal.
  rewrite <- seq_shift, map_map. exact IH.
Qed.

(** The pair of axes of index i. *)
Definition upb (z : Z) : nat := if (z =? 1)%Z then 1%nat else 0%nat.
Definition jpr (r : nat) (zs : list Z) (i : nat) : nat * nat := (i, r + 2 * i + upb (nth i zs 0%Z))%nat.
Definition jprs (r : nat) (zs : list Z) : list (nat * nat) := map (jpr r zs) (seq 0 r).

Lemma upb_le z : (upb z <= 1)%nat.
Proof. unfold upb; destruct (z =? 1)%Z; lia. Qed.

Lemma nth_jprs r zs j : (j < r)%nat -> nth j (jprs r zs) (0, 0)%nat = jpr r zs j.
Proof. intros H. unfold jprs. rewrite nth_map_lt with (d' := 0%nat) by (rewrite seq_length; lia). rewrite nth_seq_lt by lia. reflexivity. Qed.

Lemma length_jprs r zs : length (jprs r zs) = r.
Proof. unfold jprs. rewrite map_length, seq_length. reflexivity. Qed.

Lemma find_pair_low r zs k : (k < r)%nat -> find_pair k (jprs r zs) = Some k.
Proof.
  intros Hk. unfold find_pair. apply find_index_some with (d := (0, 0)%nat).
  - rewrite length_jprs; exact Hk.
  - rewrite nth_jprs by exact Hk. cbn [jpr fst snd]. rewrite Nat.eqb_refl. reflexivity.
  - intros j Hj. rewrite nth_jprs by lia. cbn [jpr fst snd].
    destruct (Nat.eqb_spec k j); [lia|].
    destruct (Nat.eqb_spec k (r + 2 * j + upb (nth j zs 0%Z)))%nat; [lia|reflexivity].
Qed.

Lemma find_pair_high r zs i b :
  (i < r)%nat -> (b <= 1)%nat ->
  find_pair (r + 2 * i + b) (jprs r zs) = if (b =? upb (nth i zs 0%Z))%nat then Some i else None.
Proof.
  intros Hi Hb. unfold find_pair.
  assert (Hgen : forall j, (j < r)%nat ->
    (((r + 2 * i + b) =? j) || ((r + 2 * i + b) =? r + 2 * j + upb (nth j zs 0%Z)))%nat
    = ((i =? j) && (b =? upb (nth i zs 0%Z)))%nat%bool).
  { intros j Hj. assert (H1 := upb_le (nth j zs 0%Z)).
    destruct (Nat.eqb_spec (r + 2 * i + b) j); [lia|].
    destruct (Nat.eqb_spec (r + 2 * i + b) (r + 2 * j + upb (nth j zs 0%Z))).
    - assert (i = j) by lia. subst j. rewrite Nat.eqb_refl. destruct (Nat.eqb_spec b (upb (nth i zs 0%Z))); [reflexivity|lia].
    - destruct (Nat.eqb_spec i j); [|reflexivity]. subst j.
      destruct (Nat.eqb_spec b (upb (nth i zs 0%Z))); [lia|reflexivity]. }
  destruct (Nat.eqb_spec b (upb (nth i zs 0%Z))) as [E|E].
  - apply find_index_some with (d := (0, 0)%nat).
    + rewrite length_jprs; exact Hi.
    + rewrite nth_jprs by exact Hi. cbn [jpr fst snd]. rewrite Hgen by exact Hi.
      rewrite Nat.eqb_refl. reflexivity.
    + intros j Hj. rewrite nth_jprs by lia. cbn [jpr fst snd]. rewrite Hgen by lia.
      destruct (Nat.eqb_spec i j); [lia|reflexivity].
  - apply find_index_none with (d := (0, 0)%nat). intros j Hj. rewrite length_jprs in Hj.
    rewrite nth_jprs by lia. cbn [jpr fst snd]. rewrite Hgen by lia. apply andb_false_r.
Qed.

Definition blk (z : Z) (i k : nat) : list nat := if (z =? 1)%Z then [i; k] else [k; i].

Lemma fill_high r zs ks idx i m :
  length zs = r -> length ks = r -> length idx = r -> (i + m = r)%nat ->
  fill (seq (r + 2 * i) (2 * m)) (jprs r zs) ks (skipn i idx) =
  flat_map (fun zik => blk (fst zik) (fst (snd zik)) (snd (snd zik)))
           (combine (skipn i zs) (combine (skipn i idx) (skipn i ks))).
Proof.
  intros Hz Hk Hi. revert i; induction m as [|m IH]; intros i Him.
  - rewrite (skipn_all2 zs) by lia. reflexivity.
  - replace (2 * S m)%nat with (S (S (2 * m))) by lia. cbn [seq fill].
    rewrite (skipn_nth_cons i zs 0%Z), (skipn_nth_cons i ks 0%nat), (skipn_nth_cons i idx 0%nat) by lia.
    cbn [combine flat_map fst snd].
    replace (S (S (r + 2 * i))) with (r + 2 * S i)%nat by lia.
    assert (E0 := find_pair_high r zs i 0 ltac:(lia) ltac:(lia)). rewrite Nat.add_0_r in E0. rewrite E0.
    assert (E1 := find_pair_high r zs i 1 ltac:(lia) ltac:(lia)).
    replace (r + 2 * i + 1)%nat with (S (r + 2 * i)) in E1 by lia. rewrite E1.
    unfold blk, upb. destruct (nth i zs 0 =? 1)%Z; cbn [Nat.eqb app]; rewrite <- IH by lia; reflexivity.
Qed.

Lemma fill_jprs r zs ks idx :
  length zs = r -> length ks = r -> length idx = r ->
  fill (seq 0 (r + 2 * r)) (jprs r zs) ks idx =
  ks ++ flat_map (fun zik => blk (fst zik) (fst (snd zik)) (snd (snd zik))) (combine zs (combine idx ks)).
Proof.
  intros Hz Hk Hi. rewrite seq_app. rewrite fill_ext_found.
  - f_equal.
    + transitivity (map (fun i => nth i ks 0%nat) (seq 0 (length ks))); [|apply map_nth_seq].
      rewrite Hk. apply map_ext_in. intros k Hin. apply in_seq in Hin.
      rewrite find_pair_low by lia. reflexivity.
    + assert (H := fill_high r zs ks idx 0 r Hz Hk Hi ltac:(lia)).
      rewrite Nat.mul_0_r, Nat.add_0_r in H. exact H.
  - intros k Hin. apply in_seq in Hin. exists k. apply find_pair_low. lia.
Qed.

Lemma length_pair_axes ps : length (pair_axes ps) = (2 * length ps)%nat.
Proof. unfold pair_axes. rewrite (flat_map_length_const _ _ 2%nat); [lia|reflexivity]. Qed.

Lemma NoDup_jprs r zs : NoDup (pair_axes (jprs r zs)).
Proof.
  unfold pair_axes, jprs. rewrite flat_map_concat_map, map_map, <- flat_map_concat_map.
  apply NoDup_flat_map.
  - apply seq_NoDup.
  - intros i Hin. apply in_seq in Hin. cbn. constructor; [|constructor; [intros []|constructor]].
    cbn. intros [H|[]]. lia.
  - intros i j k Hi Hj. apply in_seq in Hi, Hj. cbn.
    assert (H1 := upb_le (nth i zs 0%Z)). assert (H2 := upb_le (nth j zs 0%Z)).
    intros [<-|[<-|[]]] [E|[E|[]]]; lia.
Qed.

Lemma in_pair_axes_jprs r zs k : In k (pair_axes (jprs r zs)) -> (k < r + 2 * r)%nat.
Proof.
  unfold pair_axes, jprs. intros H. apply in_flat_map in H as (p & Hp & Hk).
  apply in_map_iff in Hp as (i & <- & Hi). apply in_seq in Hi. cbn in Hk.
  assert (H1 := upb_le (nth i zs 0%Z)). destruct Hk as [<-|[<-|[]]]; lia.
Qed.

Lemma length_free_jprs r zs : length (free_axes (r + 2 * r) (jprs r zs)) = r.
Proof.
  assert (H := free_pos_length (r + 2 * r) (pair_axes (jprs r zs)) (NoDup_jprs r zs)).
  rewrite length_pair_axes, length_jprs in H.
  change (free_axes (r + 2 * r) (jprs r zs)) with (free_pos (r + 2 * r) (pair_axes (jprs r zs))).
  specialize (H ltac:(apply Forall_forall; apply in_pair_axes_jprs)). lia.
Qed.

Lemma map_const_repeat {X Y} (f : X -> Y) l y : (forall x, In x l -> f x = y) -> map f l = repeat y (length l).
Proof.
  induction l as [|x l IH]; intros H; [reflexivity|]. cbn. rewrite (H x) by (left; reflexivity).
  f_equal. apply IH. intros x' Hx; apply H; right; exact Hx.
Qed.

Section JacP.
Context {A : AlgOps} {L : AlgLaws A}.
Add Ring Kring : kring (setoid keq_equiv kring_ext).

(** The tensor product with a list of matrices. *)
Lemma fold_tprod_spec n Fs a :
  awf a -> Forall (square n) Fs ->
  awf (fold_left tprod Fs a) /\
  shape (fold_left tprod Fs a) = shape a ++ repeat n (2 * length Fs) /\
  forall idx0 ps, inb (shape a) idx0 = true -> length ps = length Fs ->
    Forall (fun p => (fst p < n)%nat /\ (snd p < n)%nat) ps ->
    aget (fold_left tprod Fs a) (idx0 ++ flat_map (fun p => [fst p; snd p]) ps) ==
    aget a idx0 * kprod (map (fun Fp => aget (fst Fp) [fst (snd Fp); snd (snd Fp)]) (combine Fs ps)).
Proof.
  revert a; induction Fs as [|F Fs IH]; intros a Hw HF; cbn [fold_left].
  - cbn [length Nat.mul repeat]. rewrite app_nil_r. repeat split; [exact Hw|].
    intros idx0 [|p ps] _ Hl _; [|discriminate]. cbn. rewrite app_nil_r. ring.
  - inversion HF as [|F' Fs' [HFw HFs] HFs' E]; subst.
    destruct (IH (tprod a F) (awf_tprod a F Hw HFw) HFs') as (H1 & H2 & H3).
    split; [exact H1|]. split.
    + rewrite H2. cbn [tprod shape length]. rewrite HFs, <- app_assoc. f_equal.
      replace (2 * S (length Fs))%nat with (2 + 2 * length Fs)%nat by lia.
      rewrite repeat_app. reflexivity.
    + intros idx0 [|p ps] Hi Hl Hp; [discriminate|]. inversion Hp as [|p' l' Hp1 Hp2 E]; subst.
      cbn [flat_map combine map fst snd kprod]. rewrite app_assoc.
      assert (Hin : inb (shape F) [fst p; snd p] = true).
      { rewrite HFs. cbn [inb]. destruct (Nat.ltb_spec (fst p) n); [|lia]. destruct (Nat.ltb_spec (snd p) n); [|lia]. reflexivity. }
      rewrite H3.
      * rewrite aget_tprod by assumption. cbn [fst snd]. ring.
      * cbn [tprod shape]. rewrite inb_app by (apply inb_length; exact Hi). rewrite Hi, Hin. reflexivity.
      * cbn in Hl; lia.
      * exact Hp2.
Qed.

Lemma tr_factors_eq (J Jinv : arr) r zs :
  valid_cfg zs -> length zs = r ->
  map fst (tr_factors J Jinv r zs) = map (fun z => if (z =? 1)%Z then Jinv else J) zs /\
  map snd (tr_factors J Jinv r zs) = jprs r zs.
Proof.
  intros Hv Hl. unfold tr_factors.
  assert (G : forall ws s, valid_cfg ws ->
     flat_map (tr_factor J Jinv r) (combine (seq s (length ws)) ws) =
     map (fun iz => ((if (snd iz =? 1)%Z then Jinv else J), (fst iz, r + 2 * fst iz + upb (snd iz))%nat)) (combine (seq s (length ws)) ws)).
  { induction ws as [|w ws IH]; intros s Hw; [reflexivity|]. inversion Hw as [|w' ws' Hw1 Hw2 E]; subst.
    cbn [length seq combine flat_map map fst snd]. rewrite IH by exact Hw2.
    unfold tr_factor, upb. destruct Hw1 as [-> | ->]; cbn [Z.eqb Pos.eqb app]; [|rewrite Nat.add_0_r]; reflexivity. }
  rewrite G by exact Hv. rewrite !map_map. cbn [fst snd]. split.
  - rewrite <- (map_map snd (fun z : Z => if (z =? 1)%Z then Jinv else J)).
    rewrite map_snd_combine by (rewrite seq_length; reflexivity). reflexivity.
  - unfold jprs. rewrite <- Hl. clear Hv G Hl.
    assert (G : forall (ws : list Z) s (f : nat -> Z -> nat * nat), map (fun iz => f (fst iz) (snd iz)) (combine (seq s (length ws)) ws) =
                     map (fun i => f i (nth (i - s) ws 0%Z)) (seq s (length ws))).
    { induction ws as [|w ws IH]; intros s f; [reflexivity|]. cbn [length seq combine map fst snd].
      rewrite Nat.sub_diag. cbn [nth]. f_equal. rewrite IH. apply map_ext_in. intros i Hi. apply in_seq in Hi.
      replace (i - s)%nat with (S (i - S s)) by lia. reflexivity. }
    rewrite (G zs 0%nat (fun i z => (i, length zs + 2 * i + upb z)%nat)). apply map_ext. intros i.
    rewrite Nat.sub_0_r. reflexivity.
Qed.

Lemma jac_kprod (J Jinv : arr) zs idx ks :
  length zs = length idx -> length zs = length ks ->
  kprod (map (fun Fp => aget (fst Fp) [fst (snd Fp); snd (snd Fp)])
             (combine (map (fun z => if (z =? 1)%Z then Jinv else J) zs)
                      (map (fun zik => if (fst zik =? 1)%Z then (fst (snd zik), snd (snd zik)) else (snd (snd zik), fst (snd zik)))
                           (combine zs (combine idx ks))))) =
  kprod (map (fun mik => fst mik (fst (snd mik)) (snd (snd mik)))
             (combine (map (jac (mfun J) (mfun Jinv)) zs) (combine idx ks))).
Proof.
  revert idx ks; induction zs as [|z zs IH]; intros [|i idx] [|k ks] H1 H2; cbn in H1, H2; try discriminate; [reflexivity|].
  cbn [map combine kprod fst snd]. rewrite IH by lia. f_equal.
  unfold jac, mfun. destruct (z =? 1)%Z; reflexivity.
Qed.

Lemma jac_contract_spec n J Jinv zs a :
  cubic n a -> square n J -> square n Jinv -> valid_cfg zs -> length zs = rank a ->
  exists b, jac_contract J Jinv (rank a) zs a = Ok b /\ awf b /\ shape b = shape a /\
    forall idx, inb (shape a) idx = true ->
      aget b idx == act n (map (jac (mfun J) (mfun Jinv)) zs) (aget a) idx.
Proof.
  intros [Hw Hs] HJ HJi Hv Hl. unfold jac_contract.
  destruct (tr_factors_eq J Jinv (rank a) zs Hv Hl) as [E1 E2]. rewrite E1, E2.
  set (Fs := map (fun z => if (z =? 1)%Z then Jinv else J) zs).
  assert (HF : Forall (square n) Fs).
  { apply Forall_forall. intros F HF. apply in_map_iff in HF as (z & <- & _). destruct (z =? 1)%Z; assumption. }
  assert (HlF : length Fs = rank a) by (unfold Fs; rewrite map_length; exact Hl).
  destruct (fold_tprod_spec n Fs a Hw HF) as (H1 & H2 & H3).
  set (big := fold_left tprod Fs a) in *. rewrite HlF in H2.
  assert (Hsb : shape big = repeat n (rank a + 2 * rank a)) by (rewrite H2, repeat_app; rewrite Hs at 1; reflexivity).
  assert (Hrb : rank big = (rank a + 2 * rank a)%nat) by (unfold rank at 1; rewrite Hsb, repeat_length; reflexivity).
  unfold tcontract. rewrite Hrb.
  assert (Hok : tcontract_ok (shape big) (jprs (rank a) zs) = true).
  { unfold tcontract_ok. apply andb_true_iff. split; [apply nodupb_true, NoDup_jprs|].
    apply forallb_forall. intros p Hp. unfold jprs in Hp. apply in_map_iff in Hp as (i & <- & Hi). apply in_seq in Hi.
    assert (Hu := upb_le (nth i zs 0%Z)). rewrite Hsb, repeat_length. cbn [jpr fst snd].
    rewrite !nth_repeat_lt by lia. rewrite Nat.eqb_refl.
    destruct (Nat.ltb_spec i (rank a + 2 * rank a)); [|lia].
    destruct (Nat.ltb_spec (rank a + 2 * i + upb (nth i zs 0%Z)) (rank a + 2 * rank a)); [|lia]. reflexivity. }
  rewrite Hok. eexists. split; [reflexivity|]. split; [apply awf_tab|].
  assert (Hshp : map (fun k => nth k (shape big) 0%nat) (free_axes (rank a + 2 * rank a) (jprs (rank a) zs)) = shape a).
  { rewrite (map_const_repeat _ _ n).
    - rewrite length_free_jprs. symmetry; exact Hs.
    - intros k Hk. unfold free_axes in Hk. apply filter_In in Hk as [Hk _]. apply in_seq in Hk.
      rewrite Hsb. apply nth_repeat_lt. lia. }
  split; [exact Hshp|]. intros idx Hidx. rewrite aget_tab by (rewrite Hshp; exact Hidx).
  assert (Hsum : map (fun p => nth (fst p) (shape big) 0%nat) (jprs (rank a) zs) = repeat n (rank a)).
  { rewrite (map_const_repeat _ _ n); [rewrite length_jprs; reflexivity|].
    intros p Hp. unfold jprs in Hp. apply in_map_iff in Hp as (i & <- & Hi). apply in_seq in Hi. cbn [jpr fst].
    rewrite Hsb. apply nth_repeat_lt. lia. }
  rewrite Hsum, <- tuples_all_idx. unfold act. rewrite map_length, Hl. apply lsum_ext.
  intros ks Hks. apply in_tuples in Hks as [Hlk Hrk]. rewrite Hs in Hidx. apply inb_rng in Hidx as [Hli Hri].
  rewrite fill_jprs by assumption.
  assert (Eb : flat_map (fun zik => blk (fst zik) (fst (snd zik)) (snd (snd zik))) (combine zs (combine idx ks)) =
     flat_map (fun p => [fst p; snd p])
        (map (fun zik => if (fst zik =? 1)%Z then (fst (snd zik), snd (snd zik)) else (snd (snd zik), fst (snd zik)))
                           (combine zs (combine idx ks)))).
  { rewrite !flat_map_concat_map, map_map. f_equal. apply map_ext. intros [z [i k]]. unfold blk. cbn [fst snd].
    destruct (z =? 1)%Z; reflexivity. }
  rewrite Eb, H3.
  - unfold Fs. rewrite jac_kprod by lia. ring.
  - rewrite Hs. apply inb_rng. split; [exact Hlk|exact Hrk].
  - rewrite map_length, !combine_length, HlF. lia.
  - apply Forall_forall. intros p Hp. apply in_map_iff in Hp as ([z [i k]] & <- & Hin).
    apply in_combine_r in Hin. cbn [fst snd].
    assert (Hi : (i < n)%nat) by (apply in_combine_l in Hin; unfold rng in Hri; rewrite Forall_forall in Hri; auto).
    assert (Hk : (k < n)%nat) by (apply in_combine_r in Hin; rewrite Forall_forall in Hrk; auto).
    destruct (z =? 1)%Z; cbn; auto.
Qed.

Lemma subs_rules_spec rules a :
  awf a -> awf (subs_rules rules a) /\ shape (subs_rules rules a) = shape a /\
  forall idx, inb (shape a) idx = true -> aget (subs_rules rules a) idx = subs_seq rules (aget a idx).
Proof.
  revert a; induction rules as [|rl rules IH]; intros a Hw; cbn [subs_rules fold_left].
  - repeat split; auto.
  - destruct (IH (amap (ksub1 (fst rl) (snd rl)) a) (awf_amap _ _ Hw)) as (H1 & H2 & H3).
    split; [exact H1|]. split; [exact H2|]. intros idx Hi. unfold subs_rules in H3. rewrite H3 by exact Hi.
    rewrite aget_amap by assumption. reflexivity.
Qed.

End JacP.
