(** Products, derivatives and traces of labelled tensors. *)
From Verif Require Import Alg Alg_P Arr Arr_P Spec UtilsM Utils_P Arr2_P TensorM WorldM SpecWorld World_P Registry_P History_P CalcM SpecCalc Keep_P Calc_P.
Local Open Scope nat_scope.

(** *** Lists of symbols *)
Lemma without_eq s s' : without s s' = filter (fun x => negb (smem x s')) s.
Proof. reflexivity. Qed.
Lemma common_eq s s' : common s s' = filter (fun x => smem x s') s.
Proof. reflexivity. Qed.
Lemma indices_without_eq s i s' : indices_without s i s' = map snd (filter (fun xz => negb (smem (fst xz) s')) (combine s i)).
Proof. reflexivity. Qed.

Lemma filter_nodup {X} (p : X -> bool) l : NoDup l -> NoDup (filter p l).
Proof. apply NoDup_filter. Qed.
Lemma without_in s s' x : In x (without s s') <-> In x s /\ ~ In x s'.
Proof. rewrite ?without_eq. rewrite filter_In, negb_true_iff, smem_out. tauto. Qed.
Lemma common_in s s' x : In x (common s s') <-> In x s /\ In x s'.
Proof. rewrite ?common_eq. rewrite filter_In, smem_in. tauto. Qed.

Lemma free_split s1 s2 : free_symbols s1 s2 = without s1 s2 ++ without s2 s1.
Proof.
  rewrite !without_eq. unfold free_symbols. rewrite filter_app. f_equal; apply filter_ext_in; intros x Hx.
  - apply smem_in in Hx. rewrite Hx. destruct (smem x s2); reflexivity.
  - apply smem_in in Hx. rewrite Hx. destruct (smem x s1); reflexivity.
Qed.
Lemma free_nodup s1 s2 : NoDup s1 -> NoDup s2 -> NoDup (free_symbols s1 s2).
Proof.
  intros H1 H2. rewrite free_split.
  assert (G : forall l l' : list string, NoDup l -> NoDup l' -> (forall x, In x l -> ~ In x l') -> NoDup (l ++ l')).
  { induction l as [|y l IH]; intros l' Hl Hl' H; [exact Hl'|]. inversion Hl; subst. cbn. constructor.
    - rewrite in_app_iff. intros [C|C]; [contradiction|]. exact (H y (or_introl eq_refl) C).
    - apply IH; [assumption..|]. intros x Hx. apply H. right; exact Hx. }
  apply G; [apply filter_nodup, H1|apply filter_nodup, H2|]. intros x. rewrite !without_in. tauto.
Qed.
Lemma without_common s1 s2 : without s1 (common s1 s2) = without s1 s2.
Proof.
  rewrite !without_eq. apply filter_ext_in. intros x Hx. f_equal. destruct (smem x s2) eqn:E.
  - apply smem_in. apply smem_in in E. apply common_in; auto.
  - apply smem_out. apply smem_out in E. rewrite common_in. tauto.
Qed.
Lemma without_common' s1 s2 : without s2 (common s1 s2) = without s2 s1.
Proof.
  rewrite !without_eq. apply filter_ext_in. intros x Hx. f_equal. destruct (smem x s1) eqn:E.
  - apply smem_in. apply smem_in in E. apply common_in; auto.
  - apply smem_out. apply smem_out in E. rewrite common_in. tauto.
Qed.
Lemma nodup_app {X} (l l' : list X) : NoDup l -> NoDup l' -> (forall x, In x l -> ~ In x l') -> NoDup (l ++ l').
Proof.
  induction l as [|y l IH]; intros Hl Hl' H; [exact Hl'|]. inversion Hl; subst. cbn. constructor.
  - rewrite in_app_iff. intros [C|C]; [contradiction|]. exact (H y (or_introl eq_refl) C).
  - apply IH; [assumption..|]. intros x Hx. apply H. right; exact Hx.
Qed.
Lemma without_length s sh : NoDup s -> NoDup sh -> (forall x, In x sh -> In x s) -> length (without s sh) + length sh = length s.
Proof.
  intros Hs Hsh H. assert (E : Permutation s (without s sh ++ sh)).
  { apply NoDup_Permutation; [exact Hs| |].
    - apply nodup_app; [apply filter_nodup, Hs|exact Hsh|]. intros x. rewrite without_in. tauto.
    - intros x. rewrite in_app_iff, without_in. destruct (in_dec string_dec x sh); intuition. }
  apply Permutation_length in E. rewrite app_length in E. lia.
Qed.

Lemma select_swap i s keep : select i s keep = map snd (filter (fun xz => smem (fst xz) keep) (combine s i)).
Proof.
  unfold select. revert i. induction s as [|x s IH]; intros [|z i]; cbn; try reflexivity.
  destruct (smem x keep); cbn; rewrite IH; reflexivity.
Qed.
Lemma select_without i s s' keep : (forall x, In x s -> smem x keep = negb (smem x s')) -> select i s keep = indices_without s i s'.
Proof.
  intros H. rewrite select_swap. rewrite ?indices_without_eq. f_equal. apply filter_ext_in. intros [x z] Hx.
  apply in_combine_l in Hx. apply H, Hx.
Qed.
Lemma smem_free1 s1 s2 x : In x s1 -> smem x (free_symbols s1 s2) = negb (smem x s2).
Proof.
  intros H. rewrite free_split, smem_app. destruct (smem x s2) eqn:E; cbn [negb].
  - apply orb_false_iff. split; apply smem_out; rewrite without_in; apply smem_in in E; tauto.
  - apply orb_true_iff. left. apply smem_in, without_in. apply smem_out in E. tauto.
Qed.
Lemma smem_free2 s1 s2 x : In x s2 -> smem x (free_symbols s1 s2) = negb (smem x s1).
Proof.
  intros H. rewrite free_split, smem_app. destruct (smem x s1) eqn:E; cbn [negb].
  - apply orb_false_iff. split; apply smem_out; rewrite without_in; apply smem_in in E; tauto.
  - apply orb_true_iff. right. apply smem_in, without_in. apply smem_out in E. tauto.
Qed.
Lemma indices_without_length s i s' : length i = length s -> length (indices_without s i s') = length (without s s').
Proof.
  rewrite indices_without_eq, without_eq. rewrite map_length. revert i. induction s as [|x s IH]; intros [|z i] H; cbn in *; try discriminate; [reflexivity|].
  destruct (smem x s'); cbn; rewrite IH by lia; reflexivity.
Qed.
Lemma indices_without_valid s i s' : valid_cfg i -> valid_cfg (indices_without s i s').
Proof.
  unfold valid_cfg. rewrite !Forall_forall. intros H z Hz. rewrite indices_without_eq in Hz.
  apply in_map_iff in Hz as ([x z'] & <- & Hz). apply filter_In in Hz as [Hz _]. apply in_combine_r in Hz. apply H, Hz.
Qed.

(** *** Positions of the shared symbols *)
Lemma shared_on s1 s2 l : (forall x, In x l -> In x s1) ->
  exists p q, Forall2 (pos_rel s1) (common l s2) p /\ Forall2 (pos_rel s2) (common l s2) q /\
    flat_map (fun s => match spos s s1, spos s s2 with Some p, Some q => [(s, (p, q))] | _, _ => [] end) l =
    combine (common l s2) (combine p q).
Proof.
  induction l as [|x l IH]; intros H; [exists [], []; repeat split; constructor|].
  destruct IH as (p & q & Hp & Hq & E); [intros y Hy; apply H; right; exact Hy|].
  destruct (spos_in x s1 (H x (or_introl eq_refl))) as (j & Hj & _).
  rewrite ?common_eq. cbn [filter flat_map]. fold (common l s2). rewrite Hj. destruct (smem x s2) eqn:Ex.
  - apply smem_in in Ex. destruct (spos_in x s2 Ex) as (k & Hk & _). rewrite Hk. exists (j :: p), (k :: q).
    split; [constructor; assumption|]. split; [constructor; assumption|]. cbn. rewrite E. reflexivity.
  - apply smem_out, spos_none in Ex. rewrite Ex. exists p, q. auto.
Qed.
Lemma shared_spec s1 s2 : exists p q, Forall2 (pos_rel s1) (common s1 s2) p /\ Forall2 (pos_rel s2) (common s1 s2) q /\
  shared s1 s2 = combine (common s1 s2) (combine p q).
Proof. apply shared_on. auto. Qed.

(** A position is in the list iff its symbol is in the list of symbols. *)
Lemma pos_mem s sh pos q x : Forall2 (pos_rel s) sh pos -> NoDup s -> nth_error s q = Some x -> (In q pos <-> In x sh).
Proof.
  intros H Hn Hx. induction H as [|y j sh pos Hy _ IH]; [split; intros []|]. cbn [In]. rewrite IH.
  enough (j = q <-> y = x) by tauto. unfold pos_rel in Hy. split.
  - intros ->. apply spos_some in Hy as [Hy _]. congruence.
  - intros ->. apply (spos_nth s q x Hn) in Hx. congruence.
Qed.
Lemma pos_index s sh pos q x : Forall2 (pos_rel s) sh pos -> NoDup s -> nth_error s q = Some x ->
  index_of Nat.eqb q pos = index_of String.eqb x sh.
Proof.
  intros H Hn Hx. induction H as [|y j sh pos Hy _ IH]; [reflexivity|]. cbn [index_of]. rewrite IH.
  assert (E : (q =? j) = String.eqb x y).
  { unfold pos_rel in Hy. destruct (Nat.eqb_spec q j) as [->|N], (String.eqb_spec x y) as [->|N']; try reflexivity.
    - apply spos_some in Hy as [Hy _]. congruence.
    - apply (spos_nth s q y Hn) in Hx. congruence. }
  rewrite E. reflexivity.
Qed.

Lemma free_pos_without s sh pos q : Forall2 (pos_rel s) sh pos -> NoDup s -> q <= length s ->
  length (free_pos q pos) = length (without (firstn q s) sh).
Proof.
  intros H Hn. induction q as [|q IH]; intros Hq; [reflexivity|].
  rewrite free_pos_S, app_length, IH by lia. rewrite (firstn_S_nth q s ""%string) by lia.
  rewrite ?without_eq. rewrite filter_app, app_length. f_equal.
  assert (Hx : nth_error s q = Some (nth q s ""%string)) by (apply nth_error_nth'; lia).
  assert (E := pos_mem s sh pos q _ H Hn Hx). cbn [filter].
  destruct (existsb (Nat.eqb q) pos) eqn:E1, (smem (nth q s ""%string) sh) eqn:E2; cbn; try reflexivity.
  - apply existsb_eqb_true in E1. apply smem_out in E2. tauto.
  - apply existsb_eqb_false in E1. apply smem_in in E2. tauto.
Qed.

Lemma place_assign s sh pos ks f : NoDup s -> Forall2 (pos_rel s) sh pos ->
  place (length s) pos ks (map f (without s sh)) = map (assign sh ks f) s.
Proof.
  intros Hn H. apply nth_ext with (d := 0) (d' := 0); [rewrite length_place, map_length; reflexivity|].
  rewrite length_place. intros q Hq. rewrite nth_place by exact Hq.
  assert (Hx : nth_error s q = Some (nth q s ""%string)) by (apply nth_error_nth', Hq).
  rewrite (nth_map_lt (assign sh ks f) s q 0 ""%string) by exact Hq. unfold assign.
  rewrite (pos_index s sh pos q _ H Hn Hx). destruct (index_of String.eqb (nth q s ""%string) sh) as [j|] eqn:E; [reflexivity|].
  rewrite (free_pos_without s sh pos q H Hn) by lia.
  assert (Nx : ~ In (nth q s ""%string) sh) by (apply spos_none, E).
  assert (Es : without s sh = without (firstn q s) sh ++ nth q s ""%string :: without (skipn (S q) s) sh).
  { rewrite <- (firstn_skipn q s) at 1. rewrite ?without_eq. rewrite filter_app. f_equal.
    assert (Es : skipn q s = nth q s ""%string :: skipn (S q) s).
    { clear - Hq. revert q Hq. induction s as [|y s IH]; intros q Hq; [cbn in Hq; lia|]. destruct q; [reflexivity|].
      cbn in Hq. cbn [skipn nth]. apply IH. lia. }
    rewrite Es. cbn [filter]. apply smem_out in Nx. rewrite Nx. reflexivity. }
  rewrite Es, map_app, app_nth2 by (rewrite map_length; lia). rewrite map_length, Nat.sub_diag. reflexivity.
Qed.

Section Calc2.
Context {A : AlgOps}.

Lemma mmap_ok {X Y} (g : X -> M Y) l l' w : Forall2 (fun x y => g x w = (Ok y, w)) l l' -> mmap g l w = (Ok l', w).
Proof.
  induction 1 as [|x y l l' H _ IH]; [reflexivity|]. cbn [mmap].
  rewrite (bind_ok _ _ y w w) by exact H. rewrite (bind_ok _ _ l' w w) by exact IH. reflexivity.
Qed.

Lemma Forall2_nth {X Y} (R : X -> Y -> Prop) l l' : length l = length l' ->
  (forall k x y, nth_error l k = Some x -> nth_error l' k = Some y -> R x y) -> Forall2 R l l'.
Proof.
  revert l'. induction l as [|x l IH]; intros [|y l'] Hl H; try discriminate; constructor.
  - apply (H 0); reflexivity.
  - apply IH; [cbn in Hl; lia|]. intros k. apply (H (S k)).
Qed.

(** The configuration of the second operand of a product. *)
Lemma opposite_fetch s1 i1 s2 i2 i2' w : NoDup s1 -> length i1 = length s1 -> length i2 = length s2 -> opposite s1 i1 s2 i2 i2' ->
  mmap (fun js => match spos (snd js) s1 with
                  | Some p => let! z := mnth i1 p in mret (- z)%Z
                  | None => mnth i2 (fst js)
                  end) (combine (seq 0 (length s2)) s2) w = (Ok i2', w).
Proof.
  intros Hn Hl1 Hl2 [Hl H]. apply mmap_ok. apply Forall2_nth.
  { rewrite combine_length, seq_length. lia. }
  intros k [j x] z Hk Hz. apply combine_nth_error in Hk as [Hj Hx].
  assert (j = k).
  { assert (k < length s2) by (apply nth_error_Some; congruence).
    rewrite (nth_error_nth' _ 0) in Hj by (rewrite seq_length; exact H0). rewrite seq_nth in Hj by exact H0. injection Hj as <-. reflexivity. }
  subst j. cbn [fst snd]. destruct (H k x z Hx Hz) as [Ha Hb]. destruct (spos x s1) as [p|] eqn:Ep.
  - apply spos_some in Ep as [Ep _]. assert (Hp : p < length s1) by (apply nth_error_Some; congruence).
    destruct (nth_error i1 p) as [z1|] eqn:Ez; [|apply nth_error_None in Ez; lia].
    rewrite (bind_ok _ _ z1 w w) by (apply mopt_ok, Ez). rewrite (Ha p z1 Ep Ez). reflexivity.
  - apply spos_none in Ep. apply mopt_ok, Hb, Ep.
Qed.
Lemma opposite_disjoint s1 i1 s2 i2 i2' : length i2 = length s2 -> common s1 s2 = [] -> opposite s1 i1 s2 i2 i2' -> i2' = i2.
Proof.
  intros Hl Hc [Hl' H]. apply nth_ext with (d := 0%Z) (d' := 0%Z); [congruence|]. intros k Hk.
  assert (Hz : nth_error i2' k = Some (nth k i2' 0%Z)) by (apply nth_error_nth', Hk).
  assert (Hx : nth_error s2 k = Some (nth k s2 ""%string)) by (apply nth_error_nth'; lia).
  destruct (H k _ _ Hx Hz) as [_ Hb]. symmetry. apply nth_error_nth. apply Hb.
  intros C. assert (In (nth k s2 ""%string) (common s1 s2)) by (apply common_in; split; [exact C|apply nth_In; lia]).
  rewrite Hc in H0. exact H0.
Qed.

Context {L : AlgLaws A}.

Lemma assign_range n sh ks (f : string -> nat) s : length ks = length sh -> Forall (fun k => k < n) ks ->
  (forall x, In x s -> ~ In x sh -> f x < n) -> forall x, In x s -> assign sh ks f x < n.
Proof.
  intros Hl Hk Hf x Hx. unfold assign. change (index_of String.eqb x sh) with (spos x sh).
  destruct (spos x sh) as [j|] eqn:E.
  - apply spos_some in E as [E _]. rewrite Forall_forall in Hk. apply Hk, nth_In. rewrite Hl. apply nth_error_Some. congruence.
  - apply spos_none in E. auto.
Qed.

(** The values of a contraction of labelled arrays. *)
Lemma contract_labelled n a1 a2 s1 s2 p q :
  1 <= n -> cubic n a1 -> cubic n a2 -> rank a1 = length s1 -> rank a2 = length s2 -> NoDup s1 -> NoDup s2 ->
  Forall2 (pos_rel s1) (common s1 s2) p -> Forall2 (pos_rel s2) (common s1 s2) q ->
  exists r, contract a1 a2 (map (fun e => (Z.of_nat (fst e), Z.of_nat (snd e))) (combine p q)) = Ok r /\
    cubic n r /\ rank r = length (without s1 s2 ++ without s2 s1) /\
    forall f, (forall s, In s (without s1 s2 ++ without s2 s1) -> f s < n) ->
      keq (aget r (map f (without s1 s2 ++ without s2 s1)))
          (lsum (tuples n (length (common s1 s2))) (fun ks =>
             kmul (aget a1 (map (assign (common s1 s2) ks f) s1)) (aget a2 (map (assign (common s1 s2) ks f) s2)))).
Proof.
  intros Hn Ha1 Ha2 Hr1 Hr2 N1 N2 Hp Hq.
  assert (Nsh : NoDup (common s1 s2)) by (apply filter_nodup, N1).
  assert (Lp := F2_length _ _ _ Hp). assert (Lq := F2_length _ _ _ Hq).
  set (ps := map _ _). assert (Lps : length ps = length (common s1 s2)).
  { unfold ps. rewrite map_length, combine_length. lia. }
  assert (E1 : map (fun p0 : Z * Z => Z.to_nat (fst p0)) ps = p).
  { unfold ps. rewrite map_map. cbn [fst]. rewrite (map_ext _ (fun x => fst x)) by (intros; apply Nat2Z.id).
    apply map_fst_combine. lia. }
  assert (E2 : map (fun p0 : Z * Z => Z.to_nat (snd p0)) ps = q).
  { unfold ps. rewrite map_map. cbn [snd]. rewrite (map_ext _ (fun x => snd x)) by (intros; apply Nat2Z.id).
    apply map_snd_combine. lia. }
  assert (Hv : valid_pairs (rank a1) (rank a2) ps).
  { assert (Np := pos_nodup _ _ _ Nsh Hp). assert (Nq := pos_nodup _ _ _ Nsh Hq).
    assert (Bp := pos_lt _ _ _ Hp). assert (Bq := pos_lt _ _ _ Hq). rewrite Forall_forall in Bp, Bq.
    split; [|split].
    - apply Forall_forall. intros e He. unfold ps in He. apply in_map_iff in He as ([j k] & <- & Hjk). cbn [fst snd].
      specialize (Bp j (in_combine_l _ _ _ _ Hjk)). specialize (Bq k (in_combine_r _ _ _ _ Hjk)). lia.
    - unfold ps. rewrite map_map. cbn [fst]. rewrite <- (map_map fst Z.of_nat). rewrite map_fst_combine by lia.
      apply FinFun.Injective_map_NoDup; [intros x y; apply Nat2Z.inj|exact Np].
    - unfold ps. rewrite map_map. cbn [snd]. rewrite <- (map_map snd Z.of_nat). rewrite map_snd_combine by lia.
      apply FinFun.Injective_map_NoDup; [intros x y; apply Nat2Z.inj|exact Nq]. }
  destruct (contract_spec n a1 a2 ps Hn Ha1 Ha2 Hv) as (r & E & Wr & Sr & _ & _ & V).
  assert (W1 : length (without s1 s2) = rank a1 - length ps).
  { rewrite <- without_common, Hr1, Lps. assert (H := without_length s1 (common s1 s2) N1 Nsh). rewrite <- H; [lia|].
    intros x Hx. apply common_in in Hx. tauto. }
  assert (W2 : length (without s2 s1) = rank a2 - length ps).
  { rewrite <- without_common', Hr2, Lps. assert (H := without_length s2 (common s1 s2) N2 Nsh). rewrite <- H; [lia|].
    intros x Hx. apply common_in in Hx. tauto. }
  exists r. split; [exact E|].
  assert (Hrr : rank r = length (without s1 s2 ++ without s2 s1)).
  { unfold rank. rewrite Sr, repeat_length, app_length, W1, W2. reflexivity. }
  split; [split; [exact Wr|]|].
  { rewrite Sr. f_equal. rewrite Hrr, app_length, W1, W2. reflexivity. }
  split; [exact Hrr|]. intros f Hf. rewrite map_app, V.
  - rewrite E1, E2, Lps. apply lsum_ext. intros ks _.
    assert (Q1 := place_assign s1 (common s1 s2) p ks f N1 Hp). rewrite (without_common s1 s2) in Q1.
    assert (Q2 := place_assign s2 (common s1 s2) q ks f N2 Hq). rewrite (without_common' s1 s2) in Q2.
    rewrite Hr1, Hr2, Q1, Q2. reflexivity.
  - split; [rewrite map_length; exact W1|]. apply Forall_forall. intros k Hk. apply in_map_iff in Hk as (x & <- & Hx).
    apply Hf, in_app_iff. left; exact Hx.
  - split; [rewrite map_length; exact W2|]. apply Forall_forall. intros k Hk. apply in_map_iff in Hk as (x & <- & Hx).
    apply Hf, in_app_iff. right; exact Hx.
Qed.

Lemma matmul_run w x y t1 o1 t2 o2 m c n i2 a1 w1 a2 w2 :
  typed w -> labelled w x t1 o1 -> labelled w y t2 o2 -> 1 <= n ->
  o_metric o1 = Some m -> o_metric o2 = Some m -> o_coords o1 = Some c -> o_coords o2 = Some c -> coordinate_system w c n ->
  0 < o_rank o1 -> 0 < o_rank o2 ->
  opposite (c_syms x) (o_indices o1) (c_syms y) (o_indices o2) i2 ->
  get_components t1 (Some c) (Some (o_indices o1)) w = (Ok a1, w1) ->
  get_components t2 (Some c) (Some i2) w1 = (Ok a2, w2) ->
  cubic n a1 -> rank a1 = o_rank o1 -> cubic n a2 -> rank a2 = o_rank o2 ->
  let s1 := c_syms x in let s2 := c_syms y in let free := without s1 s2 ++ without s2 s1 in
  let i := indices_without s1 (o_indices o1) s2 ++ indices_without s2 (o_indices o2) s1 in
  exists a, matmul0 x y w = (Ok (new_calc w2 free), fresh_world w2 CTensor (tobj "TEMP" "T" i c m a)) /\
    cubic n a /\ rank a = length i /\
    forall f, (forall s, In s free -> f s < n) ->
      keq (aget a (map f free))
          (lsum (tuples n (length (common s1 s2))) (fun ks =>
             kmul (aget a1 (map (assign (common s1 s2) ks f) s1)) (aget a2 (map (assign (common s1 s2) ks f) s2)))).
Proof.
  intros Hty (Rx & Tx & Ox & Nx & Lx & Kx & Vx) (Ry & Ty & Oy & Ny & Ly & Ky & Vy) Hn M1 M2 C1 C2 Hc P1 P2 Hi G1 G2 Ha1 Hr1 Ha2 Hr2 s1 s2 free i.
  assert (Hw1 : kept w w1) by (eapply get_components_kept; [exact Hty|exact G1]).
  assert (Hw2 : kept w1 w2) by (eapply get_components_kept; [exact (kept_typed _ _ Hw1 Hty)|exact G2]).
  assert (Hw : kept w w2) by (eapply kept_trans; eauto).
  assert (Hm : cls_of w2 m = Some CMetric).
  { destruct Hw as (_ & _ & H & _). rewrite H. destruct (Hty t1 o1 Ox) as [H1 _]. apply H1, M1. }
  destruct (shared_spec s1 s2) as (p & q & Hp & Hq & Esh).
  destruct (contract_labelled n a1 a2 s1 s2 p q) as (r & Er & Hr & Hrr & Vr); try assumption; [unfold s1; congruence|unfold s2; congruence|].
  assert (Li : length i = rank r).
  { unfold i. rewrite app_length, !indices_without_length by (symmetry; assumption). rewrite Hrr, app_length. reflexivity. }
  exists r. split; [|split; [exact Hr|split; [symmetry; exact Li|exact Vr]]].
  unfold matmul0. rewrite Rx, Ry. unfold metric_attr. rewrite Tx, Ty.
  rewrite (bind_ok _ _ (Some m) w w) by (rewrite Ox, M1; reflexivity).
  rewrite (bind_ok _ _ (Some m) w w) by (rewrite Oy, M2; reflexivity).
  rewrite opt_oid_eqb_refl. cbn [negb].
  rewrite (bind_ok _ _ t1 w w) by (unfold tensor_of; rewrite Tx; reflexivity). rewrite (bind_ok _ _ o1 w w) by (apply getobj_ok, Ox).
  destruct (Nat.eqb_spec (o_rank o1) 0); [lia|].
  rewrite (bind_ok _ _ t2 w w) by (unfold tensor_of; rewrite Ty; reflexivity). rewrite (bind_ok _ _ o2 w w) by (apply getobj_ok, Oy).
  destruct (Nat.eqb_spec (o_rank o2) 0); [lia|].
  unfold tensor_product. cbv zeta. fold s1 s2. rewrite Esh. rewrite C1, C2.
  rewrite (bind_ok _ _ a1 w w1) by exact G1.
  rewrite (bind_ok _ _ i2 w1 w1).
  2:{ assert (Hf := opposite_fetch s1 (o_indices o1) s2 (o_indices o2) i2 w1 Nx (eq_sym Lx) (eq_sym Ly) Hi).
      destruct (combine (common s1 s2) (combine p q)) as [|e l] eqn:Ec; [|exact Hf].
      rewrite (opposite_disjoint s1 (o_indices o1) s2 (o_indices o2) i2); [reflexivity|symmetry; exact Ly| |exact Hi].
      assert (Lp := F2_length _ _ _ Hp). assert (Lq := F2_length _ _ _ Hq).
      destruct (common s1 s2) as [|e' l']; [reflexivity|]. destruct p; [discriminate|]. destruct q; discriminate. }
  rewrite (bind_ok _ _ a2 w1 w2) by exact G2.
  rewrite (bind_ok _ _ r w2 w2).
  2:{ apply mlift_ok. rewrite <- Er. f_equal.
      assert (Lp := F2_length _ _ _ Hp). assert (Lq := F2_length _ _ _ Hq).
      rewrite <- (map_map snd (fun e : nat * nat => (Z.of_nat (fst e), Z.of_nat (snd e)))). rewrite map_snd_combine by (rewrite combine_length; lia). reflexivity. }
  rewrite M1. rewrite (select_without (o_indices o1) s1 s2) by (intros; apply smem_free1; assumption).
  rewrite (select_without (o_indices o2) s2 s1) by (intros; apply smem_free2; assumption).
  fold i. unfold free. rewrite <- free_split.
  apply (make_calc w2 "TEMP" r m c i "T" n); try assumption.
  - apply (kept_system _ _ _ _ Hw Hc).
  - unfold i. apply Forall_app. split; apply indices_without_valid; assumption.
  - apply free_nodup; assumption.
Qed.
Theorem matmul_values w x y t1 o1 t2 o2 m c n i2 a1 w1 a2 w2 :
  typed w -> labelled w x t1 o1 -> labelled w y t2 o2 -> 1 <= n ->
  o_metric o1 = Some m -> o_metric o2 = Some m -> o_coords o1 = Some c -> o_coords o2 = Some c -> coordinate_system w c n ->
  0 < o_rank o1 -> 0 < o_rank o2 ->
  opposite (c_syms x) (o_indices o1) (c_syms y) (o_indices o2) i2 ->
  get_components t1 (Some c) (Some (o_indices o1)) w = (Ok a1, w1) ->
  get_components t2 (Some c) (Some i2) w1 = (Ok a2, w2) ->
  cubic n a1 -> rank a1 = o_rank o1 -> cubic n a2 -> rank a2 = o_rank o2 ->
  let s1 := c_syms x in let s2 := c_syms y in let free := without s1 s2 ++ without s2 s1 in
  exists z w' a, matmul x y w = (Ok z, w') /\
    result_is w' z free m c (indices_without s1 (o_indices o1) s2 ++ indices_without s2 (o_indices o2) s1) a /\ cubic n a /\
    forall f, (forall s, In s free -> f s < n) ->
      keq (aget a (map f free))
          (lsum (tuples n (length (common s1 s2))) (fun ks =>
             kmul (aget a1 (map (assign (common s1 s2) ks f) s1)) (aget a2 (map (assign (common s1 s2) ks f) s2)))).
Proof.
  intros Hty Hx Hy Hn M1 M2 C1 C2 Hc P1 P2 Hi G1 G2 Ha1 Hr1 Ha2 Hr2 s1 s2 free.
  destruct (matmul_run w x y t1 o1 t2 o2 m c n i2 a1 w1 a2 w2) as (a & E & Ha & _ & V); try assumption.
  eexists _, _, a. split; [|split; [apply result_new|split; [exact Ha|exact V]]].
  unfold matmul, matmul_with. destruct Hx as (Rx & _), Hy as (Ry & _). rewrite Rx, Ry. exact E.
Qed.
End Calc2.
