(** Proofs about the model of Utils.py. *)
From Coq Require Import Permutation.
From Verif Require Import Alg Alg_P Arr Arr_P Spec UtilsM Arr2_P.
Local Open Scope K_scope.

(** ** Sums of arrays *)
Section UtilsP.
Context {A : AlgOps} {L : AlgLaws A}.
Add Ring Kring : kring (setoid keq_equiv kring_ext).

Lemma rfold_aadd {X} (l : list X) (step : X -> res arr) (t : X -> list nat -> K) r sh :
  awf r -> shape r = sh ->
  (forall x, In x l -> exists b, step x = Ok b /\ awf b /\ shape b = sh /\
                        forall idx, inb sh idx = true -> aget b idx == t x idx) ->
  exists c, rfold (fun r x => do b <- step x; aadd r b) l r = Ok c /\ awf c /\ shape c = sh /\
            forall idx, inb sh idx = true -> aget c idx == aget r idx + lsum l (fun x => t x idx).
Proof.
  revert r; induction l as [|x l IH]; intros r Hw Hs Hl.
  - exists r; cbn. repeat split; try assumption. intros idx _; ring.
  - destruct (Hl x (or_introl eq_refl)) as (b & Eb & Hwb & Hsb & Hb).
    destruct (aadd_ok r b Hw Hwb) as (c & Ec & Hwc & Hsc & Hc); [congruence|].
    destruct (IH c Hwc) as (d & Ed & Hwd & Hsd & Hd); [congruence| |].
    { intros y Hy; apply Hl; right; exact Hy. }
    exists d. cbn [rfold]. rewrite Eb; cbn [rbind]. rewrite Ec; cbn [rbind].
    repeat split; try assumption.
    intros idx Hi. rewrite (Hd idx Hi). rewrite Hc by congruence. rewrite (Hb idx Hi).
    cbn [lsum]. ring.
Qed.

Lemma rfold_ext {X Y} (f g : X -> Y -> res X) l a :
  (forall x y, In y l -> f x y = g x y) -> rfold f l a = rfold g l a.
Proof.
  revert a; induction l as [|y l IH]; intros a H; cbn; [reflexivity|].
  rewrite H by (left; reflexivity). destruct (g a y) as [a'|e]; cbn; [|reflexivity].
  apply IH. intros x z Hz; apply H; right; exact Hz.
Qed.

Lemma zero_tensor_ok n r :
  (1 <= n)%nat ->
  exists z, zero_tensor (match repeat n r with [] => 0%Z | d :: _ => Z.of_nat d end) (Z.of_nat (length (repeat n r))) = Ok z
            /\ awf z /\ shape z = repeat n r /\ forall idx, inb (repeat n r) idx = true -> aget z idx = k0.
Proof.
  intros Hn. rewrite repeat_length. unfold zero_tensor.
  destruct r as [|r].
  - eexists; split; [reflexivity|]. split; [reflexivity|]. split; [reflexivity|].
    intros [|i idx] H; [reflexivity|discriminate].
  - destruct (Z.of_nat (S r) =? 0)%Z eqn:E; [apply Z.eqb_eq in E; lia|].
    cbn [repeat]. destruct (Z.of_nat n <? 1)%Z eqn:E1; [apply Z.ltb_lt in E1; lia|].
    destruct (0 <? Z.of_nat (S r))%Z eqn:E2; [|apply Z.ltb_ge in E2; lia].
    eexists; split; [reflexivity|]. rewrite !Nat2Z.id. split; [|split].
    + unfold awf; cbn [data shape]. rewrite repeat_length, prodn_repeat; reflexivity.
    + reflexivity.
    + intros idx Hi. unfold aget; cbn [data shape]. apply nth_repeat_lt.
      rewrite <- prodn_repeat. apply offset_lt; exact Hi.
Qed.

Lemma zero_tensor_all (dim rk : Z) :
  ((rk = 0 \/ 0 < rk /\ 1 <= dim)%Z ->
     exists z, zero_tensor dim rk = Ok z /\ awf z /\ shape z = repeat (Z.to_nat dim) (Z.to_nat rk)
               /\ forall idx, inb (shape z) idx = true -> aget z idx = k0) /\
  (~ (rk = 0 \/ 0 < rk /\ 1 <= dim)%Z -> zero_tensor dim rk = Err EValueError).
Proof.
  split.
  - intros H. destruct (Z.eq_dec rk 0) as [->|Hr].
    + eexists. split; [reflexivity|]. split; [reflexivity|]. split; [reflexivity|].
      intros [|i idx] H1; [reflexivity|discriminate].
    + destruct H as [H|[H1 H2]]; [contradiction|].
      destruct (zero_tensor_ok (Z.to_nat dim) (Z.to_nat rk)) as (z & E & W & S & G); [lia|].
      rewrite repeat_length, Z2Nat.id in E by lia.
      destruct (Z.to_nat rk) as [|r] eqn:Er; [lia|]. cbn [repeat] in E.
      rewrite Z2Nat.id in E by lia. exists z. rewrite E, S. auto.
  - intros H. unfold zero_tensor.
    destruct (rk =? 0)%Z eqn:E; [apply Z.eqb_eq in E; lia|]. apply Z.eqb_neq in E.
    destruct (dim <? 1)%Z eqn:E1; [reflexivity|]. apply Z.ltb_ge in E1.
    destruct (0 <? rk)%Z eqn:E2; [apply Z.ltb_lt in E2; lia|]. reflexivity.
Qed.

(** ** contract: validation *)

Lemma count_gt1_NoDup (l : list Z) (r : nat) :
  Forall (fun x => (0 <= x < Z.of_nat r)%Z) l -> (repeated r l = false <-> NoDup l).
Proof.
  intros Hf.
  assert (Hc : forall x (m : list Z), (count Z.eqb x m <= 1)%nat \/ (1 < count Z.eqb x m)%nat) by (intros; lia).
  assert (H1 : repeated r l = false <-> forall x, In x l -> (count Z.eqb x l <= 1)%nat).
  { unfold repeated. split.
    - intros H x Hx. rewrite Forall_forall in Hf. specialize (Hf x Hx).
      destruct (Hc x l) as [Hle|Hgt]; [exact Hle|exfalso].
      assert (Ht : existsb (fun i => 1 <? count Z.eqb (Z.of_nat i) l)%nat (seq 0 r) = true).
      { apply existsb_exists. exists (Z.to_nat x). split; [apply in_seq; lia|].
        rewrite Z2Nat.id by lia. apply Nat.ltb_lt; exact Hgt. }
      congruence.
    - intros H. destruct (existsb _ (seq 0 r)) eqn:E; [|reflexivity].
      apply existsb_exists in E as (i & _ & Hi). apply Nat.ltb_lt in Hi.
      assert (Hin : In (Z.of_nat i) l).
      { unfold count in Hi. destruct (filter (Z.eqb (Z.of_nat i)) l) as [|y m] eqn:E; [cbn in Hi; lia|].
        assert (Hy : In y (filter (Z.eqb (Z.of_nat i)) l)) by (rewrite E; left; reflexivity).
        apply filter_In in Hy as [Hy Ey]. apply Z.eqb_eq in Ey; subst; exact Hy. }
      specialize (H _ Hin). lia. }
  rewrite H1. clear H1 Hf Hc. induction l as [|y l IH].
  - split; [intros _; constructor|intros _ x []].
  - assert (Hcnt : forall x, count Z.eqb x (y :: l) = ((if Z.eqb x y then 1 else 0) + count Z.eqb x l)%nat).
    { intros x; unfold count; cbn. destruct (Z.eqb x y); reflexivity. }
    assert (Hin : forall x, In x l <-> (1 <= count Z.eqb x l)%nat).
    { intros x. unfold count. split.
      - intros Hx. assert (Hx' : In x (filter (Z.eqb x) l)) by (apply filter_In; split; [exact Hx|apply Z.eqb_refl]).
        destruct (filter (Z.eqb x) l); [destruct Hx'|cbn; lia].
      - intros Hx. destruct (filter (Z.eqb x) l) as [|z m] eqn:E; [cbn in Hx; lia|].
        assert (Hz : In z (filter (Z.eqb x) l)) by (rewrite E; left; reflexivity).
        apply filter_In in Hz as [Hz Ez]. apply Z.eqb_eq in Ez; subst; exact Hz. }
    split.
    + intros H. constructor.
      * intros Hy. specialize (H y (or_introl eq_refl)). rewrite Hcnt, Z.eqb_refl in H.
        apply Hin in Hy. lia.
      * apply IH. intros x Hx. specialize (H x (or_intror Hx)). rewrite Hcnt in H. lia.
    + intros Hd x Hx. inversion Hd as [|y' l' Hy Hd' E]; subst.
      rewrite Hcnt. destruct (Z.eqb x y) eqn:E.
      * apply Z.eqb_eq in E; subst. destruct (Nat.eq_dec (count Z.eqb y l) 0) as [E0|E0]; [lia|].
        exfalso; apply Hy, Hin; lia.
      * destruct Hx as [Hx|Hx]; [apply Z.eqb_neq in E; congruence|].
        destruct IH as [_ IH]. specialize (IH Hd' x Hx). lia.
Qed.

Lemma bad_pairs_false (a1 a2 : arr) ps :
  existsb (bad_pair a1 a2) ps = false <->
  Forall (fun p => (0 <= fst p < Z.of_nat (rank a1))%Z /\ (0 <= snd p < Z.of_nat (rank a2))%Z) ps.
Proof.
  induction ps as [|p ps IH]; cbn [existsb].
  - split; [constructor|reflexivity].
  - rewrite orb_false_iff, IH. unfold bad_pair.
    rewrite !orb_false_iff, !Z.ltb_ge, !Z.leb_gt. split.
    + intros [(((H1 & H2) & H3) & H4) H]; constructor; [lia|exact H].
    + intros H; inversion H as [|p' l' Hp Hl E]; subst. split; [lia|exact Hl].
Qed.

Lemma valid_pairs_tests (a1 a2 : arr) ps :
  valid_pairs (rank a1) (rank a2) ps <->
  existsb (bad_pair a1 a2) ps = false /\ repeated (rank a1) (map fst ps) = false
  /\ repeated (rank a2) (map snd ps) = false.
Proof.
  unfold valid_pairs. rewrite bad_pairs_false. split.
  - intros (Hf & Hd1 & Hd2). split; [exact Hf|].
    rewrite Forall_forall in Hf.
    split; (apply count_gt1_NoDup; [|assumption]); apply Forall_forall; intros x Hx;
      apply in_map_iff in Hx as (p & <- & Hp); apply Hf; exact Hp.
  - intros (Hf & Hd1 & Hd2). split; [exact Hf|].
    rewrite Forall_forall in Hf.
    split; (eapply count_gt1_NoDup; [|eassumption]); apply Forall_forall; intros x Hx;
      apply in_map_iff in Hx as (p & <- & Hp); apply Hf; exact Hp.
Qed.

Lemma NoDup_map_Zto l : Forall (fun x => (0 <= x)%Z) l -> NoDup l -> NoDup (map Z.to_nat l).
Proof.
  induction l as [|x l IH]; intros Hf Hd; cbn; [constructor|].
  inversion Hf as [|x' l' Hx Hf' E]; subst. inversion Hd as [|x' l' Hn Hd' E]; subst.
  constructor; [|apply IH; assumption].
  intros H. apply in_map_iff in H as (y & Ey & Hy).
  rewrite Forall_forall in Hf'. assert (y = x) by (specialize (Hf' y Hy); lia).
  subst; contradiction.
Qed.

(** ** contract: value *)

Lemma hd_repeat n r : (0 < r)%nat -> hd 0%nat (repeat n r) = n.
Proof. destruct r; [lia|reflexivity]. Qed.

Lemma firstn_repeat {X} (x : X) m r : firstn m (repeat x r) = repeat x (Nat.min m r).
Proof. revert r; induction m as [|m IH]; intros [|r]; cbn; try reflexivity. rewrite IH; reflexivity. Qed.

(** The positions of the pairs. *)
Lemma contract_spec n a1 a2 ps :
  (1 <= n)%nat -> cubic n a1 -> cubic n a2 -> valid_pairs (rank a1) (rank a2) ps ->
  exists r, contract a1 a2 ps = Ok r /\ awf r /\
    shape r = repeat n (rank a1 - length ps + (rank a2 - length ps))%nat /\
    (length ps <= rank a1)%nat /\ (length ps <= rank a2)%nat /\
    forall f1 f2, in_range n (rank a1 - length ps)%nat f1 -> in_range n (rank a2 - length ps)%nat f2 ->
      aget r (f1 ++ f2) ==
      lsum (tuples n (length ps)) (fun ks =>
        aget a1 (place (rank a1) (map (fun p => Z.to_nat (fst p)) ps) ks f1) *
        aget a2 (place (rank a2) (map (fun p => Z.to_nat (snd p)) ps) ks f2)).
Proof.
  intros Hn Hc1 Hc2 Hv.
  assert (Hv' := Hv). destruct Hv' as (Hf & Hd1 & Hd2).
  set (pos1 := map (fun p : Z * Z => Z.to_nat (fst p)) ps).
  set (pos2 := map (fun p : Z * Z => Z.to_nat (snd p)) ps).
  assert (Hp1 : NoDup pos1).
  { unfold pos1. rewrite <- (map_map fst Z.to_nat). apply NoDup_map_Zto; [|exact Hd1].
    apply Forall_forall; intros x Hx; apply in_map_iff in Hx as (p & <- & Hp).
    rewrite Forall_forall in Hf; specialize (Hf p Hp); lia. }
  assert (Hp2 : NoDup pos2).
  { unfold pos2. rewrite <- (map_map snd Z.to_nat). apply NoDup_map_Zto; [|exact Hd2].
    apply Forall_forall; intros x Hx; apply in_map_iff in Hx as (p & <- & Hp).
    rewrite Forall_forall in Hf; specialize (Hf p Hp); lia. }
  assert (Hr1 : Forall (fun q => (q < rank a1)%nat) pos1).
  { apply Forall_forall; intros x Hx; apply in_map_iff in Hx as (p & <- & Hp).
    rewrite Forall_forall in Hf; specialize (Hf p Hp); lia. }
  assert (Hr2 : Forall (fun q => (q < rank a2)%nat) pos2).
  { apply Forall_forall; intros x Hx; apply in_map_iff in Hx as (p & <- & Hp).
    rewrite Forall_forall in Hf; specialize (Hf p Hp); lia. }
  assert (Hl1 : length pos1 = length ps) by apply map_length.
  assert (Hl2 : length pos2 = length ps) by apply map_length.
  assert (Hk1 := free_pos_length _ _ Hp1 Hr1). assert (Hk2 := free_pos_length _ _ Hp2 Hr2).
  rewrite Hl1 in Hk1. rewrite Hl2 in Hk2.
  destruct ps as [|p0 ps0] eqn:Eps.
  - (* no pairs *)
    exists (tprod a1 a2). cbn [contract length] in *. rewrite !Nat.sub_0_r in *.
    destruct Hc1 as [Hw1 Hs1], Hc2 as [Hw2 Hs2].
    split; [reflexivity|]. split; [apply awf_tprod; assumption|].
    split; [cbn [tprod shape]; rewrite Hs1, Hs2 at 1; symmetry; apply repeat_app|].
    split; [lia|]. split; [lia|].
    intros f1 f2 H1 H2.
    assert (I1 : inb (shape a1) f1 = true) by (rewrite Hs1; apply inb_repeat; exact H1).
    assert (I2 : inb (shape a2) f2 = true) by (rewrite Hs2; apply inb_repeat; exact H2).
    rewrite aget_tprod by assumption. cbn [tuples lsum].
    assert (P : forall r f, length f = r -> place r [] [] f = f).
    { intros r f Hl. apply nth_ext with (d := 0%nat) (d' := 0%nat); [rewrite length_place; congruence|].
      rewrite length_place. intros q Hq. rewrite nth_place by exact Hq. cbn.
      f_equal. unfold free_pos. rewrite (filter_ext _ (fun _ => true)) by reflexivity.
      assert (Hft : forall (l : list nat), filter (fun _ => true) l = l).
      { induction l as [|z l IHl]; cbn; [reflexivity|rewrite IHl; reflexivity]. }
      rewrite Hft, seq_length; reflexivity. }
    unfold pos1, pos2; cbn [map]. rewrite !P by (apply H1 || apply H2). ring.
  - rewrite <- Eps in *.
    assert (Hne : (1 <= length ps)%nat) by (rewrite Eps; cbn; lia).
    assert (Ec : contract a1 a2 ps =
      (if existsb (bad_pair a1 a2) ps then Err EValueError else
       if repeated (rank a1) (map fst ps) then Err EValueError else
       if repeated (rank a2) (map snd ps) then Err EValueError else
       let all := shape a1 ++ shape a2 in
       let shp := firstn (length all - 2 * length ps)%nat all in
       do result <- zero_tensor (match shp with [] => 0%Z | d :: _ => Z.of_nat d end)
                             (Z.of_nat (length shp));
       do result <- rfold
         (fun r ks =>
           do x <- aslice a1 (slice_tuple (rank a1) pos1 ks);
           do y <- aslice a2 (slice_tuple (rank a2) pos2 ks);
           aadd r (tprod x y))
         (tuples (hd 0%nat (shape a1)) (length ps)) result;
       Ok (amap simp result))) by (rewrite Eps; reflexivity).
    rewrite Ec; clear Ec.
    destruct (proj1 (valid_pairs_tests a1 a2 ps) Hv) as (-> & -> & ->).
    cbv zeta.
    set (m := (rank a1 - length ps + (rank a2 - length ps))%nat).
    assert (Hshp : firstn (length (shape a1 ++ shape a2) - 2 * length ps)%nat (shape a1 ++ shape a2) = repeat n m).
    { destruct Hc1 as [_ Hs1], Hc2 as [_ Hs2].
      replace (shape a1 ++ shape a2) with (repeat n (rank a1 + rank a2)%nat)
        by (rewrite repeat_app; congruence).
      rewrite repeat_length, firstn_repeat. f_equal. unfold m. lia. }
    rewrite Hshp.
    destruct (zero_tensor_ok n m Hn) as (z & Ez & Hwz & Hsz & Hz).
    rewrite Ez; cbn [rbind].
    assert (Hhd : hd 0%nat (shape a1) = n).
    { destruct Hc1 as [_ Hs1]. rewrite Hs1. apply hd_repeat. lia. }
    rewrite Hhd.
    set (t := fun ks idx =>
        aget a1 (place (rank a1) pos1 ks (firstn (rank a1 - length ps) idx)) *
        aget a2 (place (rank a2) pos2 ks (skipn (rank a1 - length ps) idx))).
    destruct (rfold_aadd (tuples n (length ps))
       (fun ks => do x <- aslice a1 (slice_tuple (rank a1) pos1 ks);
                  do y <- aslice a2 (slice_tuple (rank a2) pos2 ks);
                  Ok (tprod x y)) t z (repeat n m) Hwz Hsz) as (c & Ec & Hwc & Hsc & Hc).
    { intros ks Hks. apply in_tuples in Hks as [Hkl Hkn].
      destruct (aslice_tuple n a1 pos1 ks Hc1 Hp1 Hr1) as (x & Ex & Hwx & Hsx & Hx); [congruence|exact Hkn|].
      destruct (aslice_tuple n a2 pos2 ks Hc2 Hp2 Hr2) as (y & Ey & Hwy & Hsy & Hy); [congruence|exact Hkn|].
      exists (tprod x y). rewrite Ex; cbn [rbind]. rewrite Ey; cbn [rbind].
      split; [reflexivity|]. split; [apply awf_tprod; assumption|].
      rewrite Hl1 in Hsx. rewrite Hl2 in Hsy.
      split.
      - cbn [tprod shape]. rewrite Hsx, Hsy. symmetry. apply repeat_app.
      - intros idx Hi. unfold m in Hi.
        assert (Hi' := Hi). apply inb_repeat in Hi' as [Hli _].
        rewrite repeat_app in Hi.
        rewrite <- (firstn_skipn (rank a1 - length ps) idx) in Hi.
        assert (Hlf : length (firstn (rank a1 - length ps) idx) = (rank a1 - length ps)%nat)
          by (rewrite firstn_length; lia).
        rewrite inb_app in Hi by (rewrite repeat_length; exact Hlf).
        apply andb_prop in Hi as [Hi1 Hi2].
        rewrite <- (firstn_skipn (rank a1 - length ps) idx) at 1.
        rewrite aget_tprod; [|exact Hwx|exact Hwy|rewrite Hsx; exact Hi1|rewrite Hsy; exact Hi2].
        rewrite Hx by (rewrite Hsx; exact Hi1). rewrite Hy by (rewrite Hsy; exact Hi2).
        unfold t. reflexivity. }
    assert (Er : rfold (fun r ks =>
           do x <- aslice a1 (slice_tuple (rank a1) pos1 ks);
           do y <- aslice a2 (slice_tuple (rank a2) pos2 ks);
           aadd r (tprod x y)) (tuples n (length ps)) z = Ok c).
    { rewrite <- Ec. apply rfold_ext. intros r ks _.
      destruct (aslice a1 (slice_tuple (rank a1) pos1 ks)) as [x|e]; cbn [rbind]; [|reflexivity].
      destruct (aslice a2 (slice_tuple (rank a2) pos2 ks)) as [y|e]; cbn [rbind]; reflexivity. }
    rewrite Er; cbn [rbind].
    exists (amap simp c). split; [reflexivity|]. split; [apply awf_amap; exact Hwc|].
    split; [exact Hsc|]. split; [lia|]. split; [lia|].
    intros f1 f2 [Hlf1 Hf1] [Hlf2 Hf2].
    assert (Hi : inb (repeat n m) (f1 ++ f2) = true).
    { apply inb_repeat. split; [rewrite app_length; unfold m; lia|].
      apply Forall_app; split; assumption. }
    rewrite aget_amap by (try exact Hwc; rewrite Hsc; exact Hi).
    rewrite simp_ok. rewrite (Hc _ Hi). rewrite (Hz _ Hi).
    setoid_replace (k0 + lsum (tuples n (length ps)) (fun x => t x (f1 ++ f2)))
      with (lsum (tuples n (length ps)) (fun x => t x (f1 ++ f2))) by ring.
    unfold t.
    assert (E1 : firstn (rank a1 - length ps) (f1 ++ f2) = f1).
    { rewrite <- Hlf1, firstn_app, Nat.sub_diag, firstn_all. apply app_nil_r. }
    assert (E2 : skipn (rank a1 - length ps) (f1 ++ f2) = f2).
    { rewrite <- Hlf1, skipn_app, Nat.sub_diag, skipn_all. reflexivity. }
    rewrite E1, E2. reflexivity.
Qed.

Lemma contract_invalid a1 a2 ps :
  ~ valid_pairs (rank a1) (rank a2) ps -> contract a1 a2 ps = Err EValueError.
Proof.
  intros Hv. rewrite valid_pairs_tests in Hv. unfold contract.
  destruct ps as [|p ps].
  - exfalso; apply Hv.
    assert (G : forall r, repeated r [] = false).
    { intros r. unfold repeated. generalize (seq 0 r). intros l.
      induction l as [|x l IH]; [reflexivity|exact IH]. }
    split; [reflexivity|]. split; apply G.
  - destruct (existsb (bad_pair a1 a2) (p :: ps)); [reflexivity|].
    destruct (repeated (rank a1) (map fst (p :: ps))); [reflexivity|].
    destruct (repeated (rank a2) (map snd (p :: ps))); [reflexivity|].
    exfalso; apply Hv; auto.
Qed.

(** ** partial_contract *)

Lemma rfold_axis0 l (a : arr) (r : arr) shp :
  awf r -> shape r = shp -> awf a -> (exists m, shp = m :: shape a) -> NoDup (map fst l) ->
  exists c, rfold (fun r ic => if shape_eqb (shape r) shp
             then Ok (add_axis0 r (fst ic) (amap (kdiff (snd ic)) a))
             else Err EValueError) l r = Ok c /\ awf c /\ shape c = shp /\
   forall i rest, inb shp (i :: rest) = true ->
     aget c (i :: rest) ==
     aget r (i :: rest) + lsum l (fun ic => if (i =? fst ic)%nat then kdiff (snd ic) (aget a rest) else k0).
Proof.
  intros Hw Hs Ha [m Hm] Hd. revert r Hw Hs Hd.
  induction l as [|ic l IH]; intros r Hw Hs Hd.
  - exists r; cbn. repeat split; try assumption. intros i rest _; ring.
  - cbn [rfold]. rewrite (proj2 (shape_eqb_true (shape r) shp) Hs). cbn [rbind].
    cbn in Hd; inversion Hd as [|x l' Hx Hd' E]; subst x l'.
    destruct (IH (add_axis0 r (fst ic) (amap (kdiff (snd ic)) a))) as (c & Ec & Hwc & Hsc & Hc).
    + apply awf_tab.
    + exact Hs.
    + exact Hd'.
    + exists c. split; [exact Ec|]. split; [exact Hwc|]. split; [exact Hsc|].
      intros i rest Hi. rewrite (Hc i rest Hi).
      unfold add_axis0. rewrite aget_tab by (rewrite Hs; exact Hi).
      assert (Hr : inb (shape a) rest = true).
      { rewrite Hm, inb_cons in Hi. apply andb_prop in Hi as [_ Hi]; exact Hi. }
      cbn [lsum]. destruct (i =? fst ic)%nat.
      * rewrite aget_amap by assumption. ring.
      * ring.
Qed.

Lemma lsum_combine_seq (coords : list string) (g : nat -> string -> K) s :
  lsum (combine (seq s (length coords)) coords) (fun ic => g (fst ic) (snd ic)) ==
  nsum (length coords) (fun i => g (s + i)%nat (nth i coords ""%string)).
Proof.
  revert s; induction coords as [|c cs IH]; intros s; cbn [length seq combine lsum].
  - reflexivity.
  - unfold nsum. cbn [seq lsum fst snd nth].
    rewrite Nat.add_0_r. apply kadd_proper; [reflexivity|].
    rewrite IH. unfold nsum. rewrite <- seq_shift, lsum_map.
    apply lsum_ext; intros i _. replace (s + S i)%nat with (S s + i)%nat by lia. reflexivity.
Qed.

Lemma gradient_spec n coords a :
  (1 <= n)%nat -> length coords = n -> cubic n a ->
  exists r, partial_contract coords a None = Ok r /\ awf r /\ shape r = repeat n (S (rank a)) /\
    forall i rest, (i < n)%nat -> in_range n (rank a) rest ->
      aget r (i :: rest) == kdiff (nth i coords ""%string) (aget a rest).
Proof.
  intros Hn Hl [Hw Hs]. unfold partial_contract. rewrite Hl. cbn [length].
  destruct (zero_tensor_ok n (S (rank a)) Hn) as (z & Ez & Hwz & Hsz & Hz).
  cbn [repeat] in Ez. rewrite <- Hs in Ez. cbn [length] in Ez. rewrite Ez. cbn [rbind].
  destruct (rfold_axis0 (combine (seq 0 n) coords) a z (n :: shape a)) as (c & Ec & Hwc & Hsc & Hc).
  - exact Hwz.
  - rewrite Hsz. cbn [repeat]. rewrite <- Hs; reflexivity.
  - exact Hw.
  - exists n; reflexivity.
  - rewrite map_fst_combine by (rewrite seq_length; congruence). apply seq_NoDup.
  - exists c. split; [exact Ec|]. split; [exact Hwc|].
    split; [rewrite Hsc; cbn [repeat]; rewrite <- Hs; reflexivity|].
    intros i rest Hi Hr.
    assert (Hin : inb (repeat n (S (rank a))) (i :: rest) = true).
    { apply inb_repeat. destruct Hr as [Hr1 Hr2]. split; [cbn; congruence|constructor; assumption]. }
    rewrite Hc by (cbn [repeat] in Hin; rewrite <- Hs in Hin; exact Hin).
    rewrite (Hz _ Hin).
    rewrite <- Hl at 1.
    rewrite (lsum_combine_seq coords (fun q s => if (i =? q)%nat then kdiff s (aget a rest) else k0)).
    rewrite Hl. cbn [Nat.add].
    setoid_replace (nsum n (fun i0 => if (i =? i0)%nat then kdiff (nth i0 coords ""%string) (aget a rest) else k0))
      with (kdiff (nth i coords ""%string) (aget a rest)); [ring|].
    rewrite (nsum_one n i).
    + rewrite Nat.eqb_refl. reflexivity.
    + exact Hi.
    + intros q _ Hq. destruct (i =? q)%nat eqn:E; [apply Nat.eqb_eq in E; congruence|reflexivity].
Qed.

Lemma place_one r q i rest :
  (q < r)%nat -> length rest = (r - 1)%nat ->
  place r [q] [i] rest = firstn q rest ++ i :: skipn q rest.
Proof.
  intros Hq Hl. apply nth_ext with (d := 0%nat) (d' := 0%nat).
  - rewrite length_place, app_length. cbn [length]. rewrite firstn_length, skipn_length. lia.
  - rewrite length_place. intros p Hp. rewrite nth_place by exact Hp.
    assert (Hf : forall m, length (free_pos m [q]) = (if (q <? m)%nat then m - 1 else m)%nat).
    { induction m as [|m IH]; [destruct (q <? 0)%nat eqn:E; [apply Nat.ltb_lt in E; lia|reflexivity]|].
      rewrite free_pos_S, app_length, IH. cbn [existsb].
      destruct (Nat.eqb_spec m q), (Nat.ltb_spec q m), (Nat.ltb_spec q (S m)); cbn [orb length]; lia. }
    cbn [index_of]. destruct (p =? q)%nat eqn:E.
    + apply Nat.eqb_eq in E; subst p. cbn [nth].
      rewrite app_nth2; rewrite firstn_length; [|lia].
      replace (q - Nat.min q (length rest))%nat with 0%nat by lia. reflexivity.
    + apply Nat.eqb_neq in E. rewrite Hf.
      destruct (q <? p)%nat eqn:E2; [apply Nat.ltb_lt in E2|apply Nat.ltb_ge in E2].
      * rewrite app_nth2; rewrite firstn_length; [|lia].
        replace (p - Nat.min q (length rest))%nat with (S (p - S q))%nat by lia.
        cbn [nth]. rewrite <- (firstn_skipn q rest) at 1.
        rewrite app_nth2; rewrite firstn_length; [|lia].
        f_equal. lia.
      * rewrite app_nth1 by (rewrite firstn_length; lia).
        rewrite <- (firstn_skipn q rest) at 1.
        rewrite app_nth1 by (rewrite firstn_length; lia). reflexivity.
Qed.

Lemma divergence_spec n coords a ix :
  (1 <= n)%nat -> length coords = n -> cubic n a -> (0 <= ix <= 1)%Z -> (ix < Z.of_nat (rank a))%Z ->
  exists r, partial_contract coords a (Some ix) = Ok r /\ awf r /\ shape r = repeat n (rank a - 1)%nat /\
    forall rest, in_range n (rank a - 1)%nat rest ->
      aget r rest == nsum n (fun i => kdiff (nth i coords ""%string)
        (aget a (firstn (Z.to_nat ix) rest ++ i :: skipn (Z.to_nat ix) rest))).
Proof.
  intros Hn Hl Hc H0 H1. assert (Hc' := Hc). destruct Hc' as [Hw Hs]. unfold partial_contract.
  destruct (ix <? 0)%Z eqn:E0; [apply Z.ltb_lt in E0; lia|].
  destruct (1 <? ix)%Z eqn:E1; [apply Z.ltb_lt in E1; lia|].
  destruct (Z.of_nat (rank a) <? ix)%Z eqn:E2; [apply Z.ltb_lt in E2; lia|].
  cbn [orb]. rewrite Hl.
  assert (Hshp : firstn (length (n :: shape a) - 2)%nat (n :: shape a) = repeat n (rank a - 1)%nat).
  { replace (n :: shape a) with (repeat n (S (rank a))) by (cbn [repeat]; rewrite <- Hs; reflexivity).
    rewrite repeat_length, firstn_repeat. f_equal. lia. }
  cbv zeta. rewrite Hshp.
  destruct (zero_tensor_ok n (rank a - 1)%nat Hn) as (z & Ez & Hwz & Hsz & Hz).
  rewrite Ez. cbn [rbind].
  destruct (rank a <=? Z.to_nat ix)%nat eqn:E3; [apply Nat.leb_le in E3; lia|].
  set (t := fun (ic : nat * string) rest => kdiff (snd ic) (aget a (place (rank a) [Z.to_nat ix] [fst ic] rest))).
  destruct (rfold_aadd (combine (seq 0 n) coords)
      (fun ic => do s <- aslice a (slice_tuple (rank a) [Z.to_nat ix] [fst ic]); Ok (amap (kdiff (snd ic)) s))
      t z (repeat n (rank a - 1)%nat) Hwz Hsz) as (c & Ec & Hwc & Hsc & Hcc).
  { intros ic Hic.
    assert (Hi : (fst ic < n)%nat).
    { destruct ic as [i s]. apply in_combine_l in Hic. apply in_seq in Hic. cbn; lia. }
    destruct (aslice_tuple n a [Z.to_nat ix] [fst ic] Hc) as (b & Eb & Hwb & Hsb & Hb).
    - repeat constructor. intros [].
    - repeat constructor. lia.
    - reflexivity.
    - repeat constructor. exact Hi.
    - rewrite Eb. cbn [rbind]. eexists; split; [reflexivity|]. split; [apply awf_amap; exact Hwb|].
      split; [exact Hsb|]. intros idx Hidx.
      rewrite aget_amap by (try exact Hwb; rewrite Hsb; exact Hidx).
      rewrite Hb by (rewrite Hsb; exact Hidx). reflexivity. }
  exists c. split.
  - rewrite <- Ec. apply rfold_ext. intros r ic _. unfold slice_tuple; cbn [combine fold_left fst snd].
    destruct (aslice a _) as [s|e]; cbn [rbind]; reflexivity.
  - split; [exact Hwc|]. split; [exact Hsc|]. intros rest [Hr1 Hr2].
    assert (Hin : inb (repeat n (rank a - 1)%nat) rest = true) by (apply inb_repeat; split; assumption).
    rewrite (Hcc _ Hin), (Hz _ Hin). unfold t.
    rewrite <- Hl at 1.
    rewrite (lsum_combine_seq coords (fun q s => kdiff s (aget a (place (rank a) [Z.to_nat ix] [q] rest)))).
    rewrite Hl. cbn [Nat.add].
    setoid_replace (nsum n (fun i => kdiff (nth i coords ""%string) (aget a (place (rank a) [Z.to_nat ix] [i] rest))))
     with (nsum n (fun i => kdiff (nth i coords ""%string)
        (aget a (firstn (Z.to_nat ix) rest ++ i :: skipn (Z.to_nat ix) rest)))); [ring|].
    apply nsum_ext. intros i _. rewrite place_one by (lia || assumption). reflexivity.
Qed.

Lemma divergence_high coords (a : arr) ix :
  (2 <= ix)%Z -> partial_contract coords a (Some ix) = Err EValueError.
Proof.
  intros H. unfold partial_contract.
  destruct (ix <? 0)%Z; [reflexivity|].
  destruct (1 <? ix)%Z eqn:E; [reflexivity|apply Z.ltb_ge in E; lia].
Qed.

(** ** elements and map_to_array *)

Lemma elements_rec_spec sh d pre :
  length d = prodn sh ->
  elements_rec sh d pre = map (fun idx => (pre ++ idx, nth (offset sh idx) d k0)) (all_idx sh).
Proof.
  revert d pre; induction sh as [|m sh IH]; intros d pre Hd; cbn [elements_rec all_idx].
  - cbn. rewrite app_nil_r. reflexivity.
  - cbn [prodn] in Hd.
    rewrite flat_map_concat_map. rewrite (flat_map_concat_map (fun i => map (cons i) (all_idx sh))).
    rewrite concat_map, map_map. f_equal. apply map_ext_in. intros i Hi. apply in_seq in Hi.
    assert (Hlen : length (firstn (prodn sh) (skipn (i * prodn sh) d)) = prodn sh).
    { rewrite firstn_length, skipn_length, Hd. nia. }
    rewrite IH by exact Hlen. rewrite map_map. apply map_ext_in. intros idx Hidx.
    apply in_all_idx in Hidx. assert (Ho := offset_lt _ _ Hidx).
    rewrite <- app_assoc. cbn [app offset]. f_equal.
    assert (Hf : forall (l : list K) q m, (q < m)%nat -> nth q (firstn m l) k0 = nth q l k0).
    { induction l as [|x l IHl]; intros [|q] [|m'] Hq; cbn; try lia; try reflexivity.
      apply IHl; lia. }
    rewrite Hf by exact Ho.
    assert (Hs : forall (l : list K) p q, nth q (skipn p l) k0 = nth (p + q) l k0).
    { induction l as [|x l IHl]; intros [|p] q; cbn; try reflexivity; [destruct q; reflexivity|].
      apply IHl. }
    apply Hs.
Qed.

Lemma elements_spec a : awf a -> elements a = map (fun idx => (idx, aget a idx)) (all_idx (shape a)).
Proof. intros H. unfold elements. rewrite elements_rec_spec by exact H. reflexivity. Qed.

Lemma rfold_aset_map (f : list nat -> K) l r sh :
  awf r -> shape r = sh -> (forall idx, In idx l -> inb sh idx = true) ->
  exists c, rfold (fun r p => aset r (fst p) (snd p)) (map (fun idx => (idx, f idx)) l) r = Ok c
    /\ awf c /\ shape c = sh /\
    forall idx, inb sh idx = true -> aget c idx = if existsb (shape_eqb idx) l then f idx else aget r idx.
Proof.
  revert r; induction l as [|x l IH]; intros r Hw Hs Hl.
  - exists r; cbn. repeat split; auto.
  - cbn [map rfold fst snd].
    destruct (aset r x (f x)) as [r'|e] eqn:E.
    2: { unfold aset in E. rewrite Hs, (Hl x (or_introl eq_refl)) in E. discriminate. }
    cbn [rbind].
    assert (Hw' := awf_aset _ _ _ _ E Hw). assert (Hs' := shape_aset _ _ _ _ E).
    destruct (IH r' Hw') as (c & Ec & Hwc & Hsc & Hc); [congruence| |].
    { intros y Hy; apply Hl; right; exact Hy. }
    exists c. repeat split; try assumption. intros idx Hi. rewrite (Hc idx Hi). cbn [existsb].
    rewrite (aget_aset _ _ _ _ _ Hw E) by congruence.
    destruct (existsb (shape_eqb idx) l); [rewrite orb_true_r; reflexivity|].
    rewrite orb_false_r. destruct (shape_eqb idx x) eqn:Ex; [|reflexivity].
    apply shape_eqb_true in Ex; subst; reflexivity.
Qed.

Lemma map_to_array_spec n a f :
  (1 <= n)%nat -> cubic n a ->
  exists r, map_to_array a f = Ok r /\ awf r /\ shape r = shape a /\
    forall idx, inb (shape a) idx = true -> aget r idx = f (aget a idx).
Proof.
  intros Hn [Hw Hs]. unfold map_to_array.
  destruct (zero_tensor_ok n (rank a) Hn) as (z & Ez & Hwz & Hsz & _).
  rewrite <- Hs in Ez. unfold rank at 1. rewrite Ez. cbn [rbind].
  rewrite elements_spec by exact Hw.
  destruct (rank a =? 0)%nat eqn:E.
  - apply Nat.eqb_eq in E. unfold rank in E. destruct (shape a) as [|d sh] eqn:Es; [|discriminate].
    cbn. eexists; split; [reflexivity|]. split; [reflexivity|]. split; [reflexivity|].
    intros [|i idx] Hi; [reflexivity|discriminate].
  - destruct (rfold_aset_map (fun idx => f (aget a idx)) (all_idx (shape a)) z (shape a) Hwz) as (c & Ec & Hwc & Hsc & Hc).
    + rewrite Hsz; symmetry; exact Hs.
    + intros idx Hi; apply in_all_idx; exact Hi.
    + exists c. split; [|split; [exact Hwc|split; [exact Hsc|]]].
      * rewrite <- Ec. clear.
        generalize (all_idx (shape a)) as l. intros l. revert z.
        induction l as [|x l IH]; intros z; cbn; [reflexivity|].
        destruct (aset z x (f (aget a x))) as [z'|e]; cbn; [apply IH|reflexivity].
      * intros idx Hi. rewrite (Hc idx Hi).
        assert (Ht : existsb (shape_eqb idx) (all_idx (shape a)) = true).
        { apply existsb_exists. exists idx. split; [apply in_all_idx; exact Hi|apply shape_eqb_true; reflexivity]. }
        rewrite Ht. reflexivity.
Qed.

(** A column of shape (n,1), n >= 2, comes back with shape (n,n). *)
Lemma map_to_array_column n (d : list K) f :
  (2 <= n)%nat -> length d = n ->
  exists r, map_to_array (mkArr [n; 1%nat] d) f = Ok r /\ shape r = [n; n].
Proof.
  intros Hn Hd. unfold map_to_array.
  destruct (zero_tensor_ok n 2) as (z & Ez & Hwz & Hsz & _); [lia|].
  cbn [shape rank length] in *. cbn [repeat length] in Ez. rewrite Ez. cbn [rbind].
  rewrite elements_spec by (unfold awf; cbn; lia).
  change (rank (mkArr [n; 1%nat] d) =? 0)%nat with false. cbn [shape].
  destruct (rfold_aset_map (fun idx => f (aget (mkArr [n; 1%nat] d) idx)) (all_idx [n; 1%nat]) z [n; n] Hwz Hsz)
    as (c & Ec & Hwc & Hsc & _).
  - intros idx Hi. apply in_all_idx in Hi. destruct idx as [|i [|j [|k idx]]]; try discriminate Hi.
    + rewrite inb_cons in Hi; apply andb_prop in Hi as [_ Hi]; discriminate.
    + apply inb_cons_true in Hi as [H1 H2]. apply inb_cons_true in H2 as [H2 _].
      apply inb_cons_true; split; [exact H1|]. apply inb_cons_true; split; [lia|reflexivity].
    + rewrite !inb_cons in Hi. apply andb_prop in Hi as [_ Hi]. apply andb_prop in Hi as [_ Hi]. discriminate.
  - exists c. split; [|exact Hsc]. rewrite <- Ec. clear.
    generalize (all_idx [n; 1%nat]) as l. intros l. revert z.
    induction l as [|x l IH]; intros z; cbn; [reflexivity|].
    destruct (aset z x _) as [z'|e]; cbn; [apply IH|reflexivity].
Qed.

End UtilsP.

Section UtilsP2.
Context {A : AlgOps} {L : AlgLaws A}.

Lemma valid_pairs_dec (r1 r2 : nat) (ps : list (Z * Z)) : valid_pairs r1 r2 ps \/ ~ valid_pairs r1 r2 ps.
Proof.
  set (a1 := mkArr (repeat 0%nat r1) []). set (a2 := mkArr (repeat 0%nat r2) []).
  replace r1 with (rank a1) by (unfold a1, rank; cbn; apply repeat_length).
  replace r2 with (rank a2) by (unfold a2, rank; cbn; apply repeat_length).
  rewrite valid_pairs_tests.
  destruct (existsb (bad_pair a1 a2) ps); [right; intros (H & _); discriminate|].
  destruct (repeated (rank a1) (map fst ps)); [right; intros (_ & H & _); discriminate|].
  destruct (repeated (rank a2) (map snd ps)); [right; intros (_ & _ & H); discriminate|].
  left; auto.
Qed.

Lemma contract_validation n (a1 a2 : arr) ps :
  (1 <= n)%nat -> cubic n a1 -> cubic n a2 ->
  (contract a1 a2 ps = Err EValueError <-> ~ valid_pairs (rank a1) (rank a2) ps) /\
  (valid_pairs (rank a1) (rank a2) ps <-> exists r, contract a1 a2 ps = Ok r).
Proof.
  intros Hn H1 H2. split.
  - split; [|apply contract_invalid].
    intros E Hv. destruct (contract_spec n a1 a2 ps Hn H1 H2 Hv) as (r & Er & _). congruence.
  - split.
    + intros Hv. destruct (contract_spec n a1 a2 ps Hn H1 H2 Hv) as (r & Er & _). exists r; exact Er.
    + intros [r Er]. destruct (valid_pairs_dec (rank a1) (rank a2) ps) as [Hv|Hv]; [exact Hv|].
      rewrite (contract_invalid _ _ _ Hv) in Er. discriminate.
Qed.

Lemma elements_complete (a : arr) : awf a ->
  NoDup (map fst (elements a)) /\
  forall idx x, In (idx, x) (elements a) <-> inb (shape a) idx = true /\ x = aget a idx.
Proof.
  intros Hw. rewrite elements_spec by exact Hw. split.
  - rewrite map_map. cbn. rewrite map_id. apply NoDup_all_idx.
  - intros idx x. rewrite in_map_iff. split.
    + intros (i & E & Hi). injection E as <- <-. split; [apply in_all_idx; exact Hi|reflexivity].
    + intros [Hi ->]. exists idx. split; [reflexivity|apply in_all_idx; exact Hi].
Qed.
End UtilsP2.
