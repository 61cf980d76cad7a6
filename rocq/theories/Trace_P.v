(** Traces of labelled tensors. *)
From Coq Require Import Sorting.Sorted.
From Verif Require Import Alg Alg_P Arr Arr_P Spec UtilsM Utils_P Arr2_P Act_P TensorM RL_P WorldM SpecWorld World_P Registry_P History_P CalcM SpecCalc Keep_P Calc_P Calc2_P Calc3_P.
Local Open Scope nat_scope.

(** *** Positions *)
Lemma positions_occ x s : positions x s = occurrences s x.
Proof.
  unfold positions, occurrences.
  assert (H : forall l off, map fst (filter (fun iv : nat * string => String.eqb x (snd iv)) (combine (seq off (length l)) l)) =
    filter (fun q => String.eqb x (nth (q - off) l ""%string)) (seq off (length l))).
  { induction l as [|y l IH]; intros off; [reflexivity|]. cbn [length seq combine filter snd]. rewrite Nat.sub_diag. change (nth 0 (y :: l) ""%string) with y.
    assert (E : filter (fun q => String.eqb x (nth (q - off) (y :: l) ""%string)) (seq (S off) (length l)) =
                filter (fun q => String.eqb x (nth (q - S off) l ""%string)) (seq (S off) (length l))).
    { apply filter_ext_in. intros q Hq. apply in_seq in Hq. replace (q - off) with (S (q - S off)) by lia. reflexivity. }
    rewrite E. destruct (String.eqb x y); cbn [map fst]; rewrite IH; reflexivity. }
  rewrite H. apply filter_ext. intros q. rewrite Nat.sub_0_r. reflexivity.
Qed.
Lemma occ_in s x q : In q (occurrences s x) <-> q < length s /\ nth q s ""%string = x.
Proof.
  unfold occurrences. rewrite filter_In, in_seq, String.eqb_eq. split; (intros [H1 H2]; split; [lia|congruence]).
Qed.
Lemma occ_count s x : length (occurrences s x) = count String.eqb x s.
Proof.
  rewrite <- positions_occ. unfold positions, count. rewrite map_length.
  assert (H : forall off, length (filter (fun iv : nat * string => String.eqb x (snd iv)) (combine (seq off (length s)) s)) =
    length (filter (String.eqb x) s)); [|apply H].
  induction s as [|y s IH]; intros off; [reflexivity|]. cbn [length seq combine filter snd].
  destruct (String.eqb x y); cbn [length]; rewrite IH; reflexivity.
Qed.
Lemma seq_filter_sorted p off n : Sorted.StronglySorted lt (filter p (seq off n)).
Proof.
  revert off. induction n as [|n IH]; intros off; [constructor|]. cbn [seq filter].
  destruct (p off); [|apply IH]. constructor; [apply IH|]. apply Forall_forall. intros q Hq. apply filter_In in Hq as [Hq _].
  apply in_seq in Hq. lia.
Qed.
Lemma occ_two s x : count String.eqb x s = 2 -> exists p q, occurrences s x = [p; q] /\ p < q /\ q < length s.
Proof.
  intros H. rewrite <- occ_count in H. assert (S := seq_filter_sorted (fun q => String.eqb x (nth q s ""%string)) 0 (length s)).
  assert (Hin := occ_in s x). change (filter _ _) with (occurrences s x) in S.
  destruct (occurrences s x) as [|p [|q [|r l]]]; try discriminate. exists p, q. split; [reflexivity|].
  inversion S as [|? ? _ Hf]; subst. inversion Hf; subst. split; [assumption|]. apply (proj1 (Hin q)). right; left; reflexivity.
Qed.

(** *** Lists without some symbols *)
Lemma without_app l l' D : without (l ++ l') D = without l D ++ without l' D.
Proof. rewrite !without_eq. apply filter_app. Qed.
Lemma without_without l D x : without (without l D) [x] = without l (x :: D).
Proof.
  rewrite !without_eq. induction l as [|y l IH]; [reflexivity|]. cbn [filter].
  assert (E : smem y (x :: D) = smem y [x] || smem y D) by (unfold smem; cbn [existsb]; rewrite orb_false_r; reflexivity).
  rewrite E. destruct (smem y D); cbn [negb].
  - rewrite orb_true_r. exact IH.
  - rewrite orb_false_r. cbn [filter]. destruct (smem y [x]); cbn [negb]; rewrite IH; reflexivity.
Qed.
Lemma without_nil l : without l [] = l.
Proof. rewrite without_eq. induction l as [|y l IH]; [reflexivity|]. cbn [filter smem existsb negb]. f_equal. exact IH. Qed.
Lemma firstn_without s D q : firstn (length (without (firstn q s) D)) (without s D) = without (firstn q s) D.
Proof. rewrite <- (firstn_skipn q s) at 2. rewrite without_app, firstn_app, firstn_all, Nat.sub_diag. cbn. apply app_nil_r. Qed.
Lemma skipn_nth {X} q (s : list X) d : q < length s -> skipn q s = nth q s d :: skipn (S q) s.
Proof.
  revert q. induction s as [|y s IH]; intros [|q] H; cbn in H; try lia; [reflexivity|]. cbn [skipn nth]. apply IH. lia.
Qed.
Lemma firstn_nth_lt {X} (l : list X) k q d : q < k -> nth q (firstn k l) d = nth q l d.
Proof.
  revert k q. induction l as [|y l IH]; intros [|k] [|q] H; try lia; try reflexivity.
  cbn [firstn nth]. apply IH. lia.
Qed.
Lemma nth_without s D q : q < length s -> ~ In (nth q s ""%string) D ->
  length (without (firstn q s) D) < length (without s D) /\
  nth (length (without (firstn q s) D)) (without s D) ""%string = nth q s ""%string.
Proof.
  intros Hq Hx. assert (E : without s D = without (firstn q s) D ++ nth q s ""%string :: without (skipn (S q) s) D).
  { rewrite <- (firstn_skipn q s) at 1. rewrite without_app. f_equal. rewrite (skipn_nth q s ""%string Hq).
    rewrite !without_eq. cbn [filter]. apply smem_out in Hx. rewrite Hx. reflexivity. }
  rewrite E. rewrite app_length, app_nth2, Nat.sub_diag by lia. cbn. split; [lia|reflexivity].
Qed.
Lemma count_without s D x : ~ In x D -> count String.eqb x (without s D) = count String.eqb x s.
Proof.
  intros Hx. unfold count. rewrite without_eq. induction s as [|y s IH]; [reflexivity|]. cbn [filter].
  destruct (String.eqb_spec x y) as [->|N].
  - apply smem_out in Hx. rewrite Hx. cbn [negb filter]. rewrite String.eqb_refl. cbn. rewrite IH. reflexivity.
  - destruct (smem y D); cbn [negb filter]; [exact IH|]. destruct (String.eqb_spec x y); [congruence|exact IH].
Qed.
Lemma count_gone s D x : In x D -> count String.eqb x (without s D) = 0.
Proof.
  intros Hx. unfold count. rewrite without_eq. induction s as [|y s IH]; [reflexivity|]. cbn [filter].
  destruct (smem y D) eqn:E; cbn [negb]; [exact IH|]. cbn [filter]. destruct (String.eqb_spec x y) as [->|N]; [|exact IH].
  apply smem_out in E. contradiction.
Qed.
Lemma count_in x s : In x s <-> 0 < count String.eqb x s.
Proof.
  unfold count. induction s as [|y s IH]; cbn [filter In]; [cbn; split; [intros []|lia]|].
  destruct (String.eqb_spec x y) as [->|N]; [cbn; split; auto; lia|]. rewrite IH. split; [intros [E|H]; [congruence|exact H]|auto].
Qed.

Lemma free_pos_occ s x P : P <= length s -> length (free_pos P (occurrences s x)) = length (without (firstn P s) [x]).
Proof.
  induction P as [|P IH]; intros HP; [reflexivity|]. rewrite free_pos_S, app_length, IH by lia.
  rewrite (firstn_S_nth P s ""%string) by lia. rewrite without_app, app_length. f_equal.
  rewrite without_eq. cbn [filter]. assert (E := occ_in s x P).
  destruct (existsb (Nat.eqb P) (occurrences s x)) eqn:E1, (smem (nth P s ""%string) [x]) eqn:E2; cbn; try reflexivity.
  - apply existsb_eqb_true in E1. apply E in E1 as [_ E1]. apply smem_out in E2. exfalso. apply E2. left; auto.
  - apply existsb_eqb_false in E1. apply smem_in in E2 as [E2|[]]. exfalso. apply E1, E. split; [lia|auto].
Qed.

(** *** The index tuple of a trace *)
Definition merge (s D : list string) (ks ls idx : list nat) : list nat :=
  map (fun q => let y := nth q s ""%string in
         match index_of String.eqb y D with
         | Some j => if smem y (firstn q s) then nth j ls 0 else nth j ks 0
         | None => nth (length (without (firstn q s) D)) idx 0
         end) (seq 0 (length s)).

Lemma merge_nil s ks ls idx : length idx = length s -> merge s [] ks ls idx = idx.
Proof.
  intros H. apply nth_ext with (d := 0) (d' := 0); [unfold merge; rewrite map_length, seq_length; auto|].
  unfold merge. rewrite map_length, seq_length. intros q Hq. rewrite nth_map_seq by exact Hq. cbn [index_of].
  rewrite without_nil, firstn_length, Nat.min_l by lia. reflexivity.
Qed.
Lemma merge_map s D ks ls f : merge s D ks ls (map f (without s D)) = trace_index s D ks ls f.
Proof.
  unfold merge, trace_index. apply map_ext_in. intros q Hq. apply in_seq in Hq. cbv zeta. unfold assign.
  change (existsb (String.eqb (nth q s ""%string)) (firstn q s)) with (smem (nth q s ""%string) (firstn q s)).
  destruct (index_of String.eqb (nth q s ""%string) D) as [j|] eqn:E; [reflexivity|].
  apply spos_none in E. destruct (nth_without s D q) as [H1 H2]; [lia|exact E|].
  rewrite (nth_map_lt f _ _ 0 ""%string) by exact H1. rewrite H2. destruct (smem _ _); reflexivity.
Qed.
Lemma merge_step s D x p0 p1 k l ks ls idx : ~ In x D -> occurrences (without s D) x = [p0; p1] -> p0 < p1 ->
  merge s D ks ls (place (length (without s D)) [p0; p1] [k; l] idx) = merge s (x :: D) (k :: ks) (l :: ls) idx.
Proof.
  intros Hx Ho Hp. unfold merge. apply map_ext_in. intros q Hq. apply in_seq in Hq. cbv zeta.
  set (y := nth q s ""%string). set (cur := without s D) in *. cbn [index_of].
  assert (Hocc : forall P, P < length cur -> nth P cur ""%string = x -> P = p0 \/ P = p1).
  { intros P H1 H2. assert (H : In P (occurrences cur x)) by (apply occ_in; auto). rewrite Ho in H. destruct H as [H|[H|[]]]; auto. }
  assert (Hp0 : p0 < length cur /\ nth p0 cur ""%string = x) by (apply occ_in; rewrite Ho; left; reflexivity).
  assert (Hp1 : p1 < length cur /\ nth p1 cur ""%string = x) by (apply occ_in; rewrite Ho; right; left; reflexivity).
  destruct (String.eqb_spec y x) as [Ey|Ny].
  - assert (Hy : ~ In y D) by congruence. assert (E : index_of String.eqb y D = None) by (apply spos_none, Hy). rewrite E.
    destruct (nth_without s D q) as [H1 H2]; [lia|exact Hy|]. set (P := length (without (firstn q s) D)) in *. fold cur in H1, H2.
    rewrite nth_place by exact H1. fold y in H2. rewrite Ey in H2.
    assert (Hf := firstn_without s D q). fold cur P in Hf.
    cbn [index_of]. destruct (Hocc P H1 H2) as [->|HP].
    + rewrite Nat.eqb_refl. cbn [nth]. assert (Hs : smem y (firstn q s) = false); [|rewrite Hs; reflexivity].
      apply smem_out. intros C. assert (C' : In x (without (firstn q s) D)) by (apply without_in; rewrite <- Ey; auto).
      rewrite <- Hf in C'. apply In_nth with (d := ""%string) in C' as (P' & L' & E').
      rewrite firstn_length in L'. rewrite (firstn_nth_lt) in E' by lia.
      destruct (Hocc P') as [->| ->]; [lia|exact E'|lia|lia].
    + rewrite HP. destruct (Nat.eqb_spec p1 p0); [lia|]. rewrite Nat.eqb_refl. cbn [option_map nth].
      assert (Hs : smem y (firstn q s) = true); [|rewrite Hs; reflexivity].
      apply smem_in. assert (C : In x (without (firstn q s) D)).
      { rewrite <- Hf. destruct Hp0 as [L0 E0]. rewrite <- E0. rewrite <- (firstn_nth_lt cur P p0 ""%string) by lia.
        apply nth_In. rewrite firstn_length. lia. }
      rewrite Ey. apply without_in in C. tauto.
  - destruct (index_of String.eqb y D) as [j|] eqn:E; cbn [option_map]; [reflexivity|].
    assert (Hy : ~ In y D) by (apply spos_none, E).
    destruct (nth_without s D q) as [H1 H2]; [lia|exact Hy|]. set (P := length (without (firstn q s) D)) in *. fold cur in H1, H2.
    rewrite nth_place by exact H1. fold y in H2.
    assert (NP : index_of Nat.eqb P [p0; p1] = None).
    { cbn [index_of]. destruct (Nat.eqb_spec P p0) as [->|]; [destruct Hp0; congruence|].
      destruct (Nat.eqb_spec P p1) as [->|]; [destruct Hp1; congruence|]. reflexivity. }
    rewrite NP. rewrite <- Ho, free_pos_occ by lia. assert (Hf := firstn_without s D q). fold cur P in Hf. rewrite Hf, without_without. reflexivity.
Qed.

Lemma selected_without (x : string) s i ps : length i = length s -> (forall q, q < length s -> existsb (Nat.eqb q) ps = smem (nth q s ""%string) [x]) ->
  map snd (filter (fun iz : nat * Z => negb (existsb (Nat.eqb (fst iz)) ps)) (combine (seq 0 (length i)) i)) = indices_without s i [x].
Proof.
  intros Hl. rewrite indices_without_eq.
  assert (G : forall s i off, length i = length s -> (forall q, q < length s -> existsb (Nat.eqb (off + q)) ps = smem (nth q s ""%string) [x]) ->
    map snd (filter (fun iz : nat * Z => negb (existsb (Nat.eqb (fst iz)) ps)) (combine (seq off (length i)) i)) =
    map snd (filter (fun xz : string * Z => negb (smem (fst xz) [x])) (combine s i))).
  { clear. induction s as [|y s IH]; intros [|z i] off Hl H; cbn in Hl; try discriminate; [reflexivity|].
    cbn [length seq combine filter fst]. assert (H0 := H 0). rewrite Nat.add_0_r in H0. cbn [nth] in H0. rewrite H0 by (cbn; lia).
    assert (E : map snd (filter (fun iz : nat * Z => negb (existsb (Nat.eqb (fst iz)) ps)) (combine (seq (S off) (length i)) i)) =
      map snd (filter (fun xz : string * Z => negb (smem (fst xz) [x])) (combine s i))); [|destruct (smem y [x]); cbn [negb map snd]; rewrite E; reflexivity].
    apply IH; [lia|]. intros q Hq. specialize (H (S q)). rewrite Nat.add_succ_r in H. apply H. cbn. lia. }
  intros H. apply (G s i 0 Hl). exact H.
Qed.
Lemma indices_without_nil s i : length i = length s -> indices_without s i [] = i.
Proof.
  rewrite indices_without_eq. revert i. induction s as [|y s IH]; intros [|z i] H; cbn in H; try discriminate; [reflexivity|].
  cbn [combine filter fst smem existsb negb map snd]. f_equal. apply IH. lia.
Qed.
Lemma indices_without_without s i D x : length i = length s ->
  indices_without (without s D) (indices_without s i D) [x] = indices_without s i (x :: D).
Proof.
  rewrite !indices_without_eq, without_eq. revert i. induction s as [|y s IH]; intros [|z i] H; cbn in H; try discriminate; [reflexivity|].
  cbn [combine filter fst]. assert (E : smem y (x :: D) = smem y [x] || smem y D) by (unfold smem; cbn [existsb]; rewrite orb_false_r; reflexivity).
  rewrite E. assert (Ei := IH i ltac:(lia)). destruct (smem y D); cbn [negb].
  - rewrite orb_true_r. exact Ei.
  - rewrite orb_false_r. cbn [map snd combine filter fst]. destruct (smem y [x]); cbn [negb map snd]; rewrite Ei; reflexivity.
Qed.
Lemma nth_indices_without s i D q : length i = length s -> q < length s -> ~ In (nth q s ""%string) D ->
  nth_error (indices_without s i D) (length (without (firstn q s) D)) = Some (nth q i 0%Z).
Proof.
  rewrite indices_without_eq, without_eq. revert i q. induction s as [|y s IH]; intros [|z i] q Hl Hq Hx; cbn in Hl, Hq; try lia.
  destruct q as [|q].
  - cbn [nth] in Hx. cbn [firstn filter length combine fst nth]. apply smem_out in Hx. rewrite Hx. reflexivity.
  - cbn [nth] in Hx. cbn [firstn filter combine fst nth]. assert (E := IH i q ltac:(lia) ltac:(lia) Hx).
    destruct (smem y D); cbn [negb map snd length nth_error]; exact E.
Qed.

Section TraceP.
Context {A : AlgOps} {L : AlgLaws A}.
Add Ring Kring : kring (setoid keq_equiv kring_ext).
Variables (n : nat) (s : list string) (i : list Z) (G : Z -> Z -> arr) (a : arr) (m c : oid) (om : obj).
Hypothesis Hn : 1 <= n.
Hypothesis Hl : length s = length i.
Hypothesis Vi : valid_cfg i.
Hypothesis HG : metric_tables n om c G.
(** A property of sessions that temporary tensors do not change. *)
Variable P : world -> Prop.
Hypothesis HP : forall w sy i' r, P w -> P (fresh_world w CTensor (tobj "TEMP" sy i' c m r)).
(** A property of the identities of temporary tensors. *)
Variable Q : oid -> Prop.
Hypothesis HQ : forall w, P w -> Q (length (heap w)).

(** The values of a partly traced tensor. *)
Definition trace_values (D : list string) (b : arr) : Prop :=
  cubic n b /\ rank b = length (without s D) /\
  forall idx, in_range n (length (without s D)) idx ->
    keq (aget b idx) (lsum (tuples n (length D)) (fun ks => lsum (tuples n (length D)) (fun ls =>
      kmul (trace_factor s i G D ks ls) (aget a (merge s D ks ls idx))))).

Definition trace_inv (w : world) (t : oid) (D : list string) : Prop :=
  P w /\ typed w /\ coordinate_system w c n /\ cls_of w m = Some CMetric /\ obj_of w m = Some om /\
  NoDup D /\ (forall y, In y D -> count String.eqb y s = 2) /\
  exists k o b, cls_of w t = Some k /\ k <> CCoordinates /\ obj_of w t = Some o /\ stored_default o c b /\ o_metric o = Some m /\
    o_indices o = indices_without s i D /\ o_rank o = length (o_indices o) /\ trace_values D b /\ (D = [] \/ Q t).

Lemma place_range r p q k l idx : in_range n (r - 2) idx -> p < q -> q < r -> k < n -> l < n -> in_range n r (place r [p; q] [k; l] idx).
Proof.
  intros [Hi1 Hi2] Hpq Hq Hk Hl'. apply inb_repeat. apply inb_place.
  - repeat constructor; cbn; intuition lia.
  - repeat constructor; lia.
  - reflexivity.
  - cbn [length]. lia.
  - repeat constructor; assumption.
  - exact Hi2.
Qed.

Lemma occ_shift D x q0 q1 p0 p1 : ~ In x D -> occurrences s x = [q0; q1] -> q0 < q1 ->
  occurrences (without s D) x = [p0; p1] -> p0 < p1 ->
  p0 = length (without (firstn q0 s) D) /\ p1 = length (without (firstn q1 s) D).
Proof.
  intros Hx Ho Hq Hp Hlt.
  assert (H0 : q0 < length s /\ nth q0 s ""%string = x) by (apply occ_in; rewrite Ho; left; reflexivity).
  assert (H1 : q1 < length s /\ nth q1 s ""%string = x) by (apply occ_in; rewrite Ho; right; left; reflexivity).
  destruct H0 as [L0 E0], H1 as [L1 E1].
  destruct (nth_without s D q0 L0) as [A0 B0]; [congruence|]. destruct (nth_without s D q1 L1) as [A1 B1]; [congruence|].
  assert (I0 : In (length (without (firstn q0 s) D)) [p0; p1]) by (rewrite <- Hp; apply occ_in; split; [exact A0|congruence]).
  assert (I1 : In (length (without (firstn q1 s) D)) [p0; p1]) by (rewrite <- Hp; apply occ_in; split; [exact A1|congruence]).
  assert (Hm : length (without (firstn q0 s) D) < length (without (firstn q1 s) D)).
  { assert (Ef : firstn q1 s = firstn q0 s ++ nth q0 s ""%string :: firstn (q1 - S q0) (skipn (S q0) s)).
    { rewrite <- (firstn_skipn q0 (firstn q1 s)). rewrite firstn_firstn, Nat.min_l by lia. f_equal.
      rewrite (skipn_nth q0 (firstn q1 s) ""%string) by (rewrite firstn_length; lia). rewrite firstn_nth_lt by exact Hq. f_equal.
      rewrite skipn_firstn_comm. reflexivity. }
    rewrite Ef, without_app, app_length. rewrite (without_eq (_ :: _)). cbn [filter].
    assert (Em : smem (nth q0 s ""%string) D = false) by (apply smem_out; congruence). rewrite Em. cbn. lia. }
  cbn [In] in I0, I1. lia.
Qed.

Lemma step_run w t D x : trace_inv w t D -> ~ In x D -> count String.eqb x s = 2 ->
  exists t' w', trace_step (Some t, without s D) x w = (Ok (Some t', without s (x :: D)), w') /\ trace_inv w' t' (x :: D).
Proof.
  intros (HPw & Hty & Hc & Hm & Hom & Nd & HD & k & o & b & Hk & Nk & Ho & Hs & Mo & Eo & Ro & (Hb & Rb & Vb) & _) Hx H2.
  assert (C2 : count String.eqb x (without s D) = 2) by (rewrite count_without; assumption).
  destruct (occ_two _ _ C2) as (p0 & p1 & Op & Hp & Lp). destruct (occ_two _ _ H2) as (q0 & q1 & Oq & Hq & Lq).
  destruct (occ_shift D x q0 q1 p0 p1 Hx Oq Hq Op Hp) as [Ep0 Ep1].
  assert (H0 : q0 < length s /\ nth q0 s ""%string = x) by (apply occ_in; rewrite Oq; left; reflexivity).
  assert (H1 : q1 < length s /\ nth q1 s ""%string = x) by (apply occ_in; rewrite Oq; right; left; reflexivity).
  set (z0 := nth q0 i 0%Z). set (z1 := nth q1 i 0%Z).
  assert (Ez0 : nth_error (o_indices o) p0 = Some z0).
  { rewrite Eo, Ep0. apply nth_indices_without; [auto|apply H0|]. destruct H0; congruence. }
  assert (Ez1 : nth_error (o_indices o) p1 = Some z1).
  { rewrite Eo, Ep1. apply nth_indices_without; [auto|apply H1|]. destruct H1; congruence. }
  assert (Vz : valid_cfg [- z0; - z1]%Z).
  { assert (V0 : z0 = 1%Z \/ z0 = (-1)%Z) by (apply (proj1 (Forall_forall _ _) Vi); apply nth_In; lia).
    assert (V1 : z1 = 1%Z \/ z1 = (-1)%Z) by (apply (proj1 (Forall_forall _ _) Vi); apply nth_In; lia).
    constructor; [destruct V0 as [->| ->]; cbn; auto|]. constructor; [destruct V1 as [->| ->]; cbn; auto|constructor]. }
  destruct HG as (Gc & Gi & d & Gd & HGz). destruct (HGz _ _ Vz) as (Gz & Cg & Rg). set (g := G (- z0) (- z1)) in *.
  assert (Hr2 : 2 <= rank b) by lia.
  destruct (contract_spec n g b [(0, Z.of_nat p0); (1, Z.of_nat p1)]%Z Hn Cg Hb) as (r & Er & Wr & Sr & _ & _ & Vr).
  { rewrite Rg. split; [|split].
    - repeat constructor; cbn [fst snd]; lia.
    - repeat constructor; cbn; intuition lia.
    - repeat constructor; cbn; intuition lia. }
  rewrite Rg in Sr, Vr. cbn [length] in Sr, Vr. cbn [Nat.sub Nat.add] in Sr.
  assert (Lcur : length (without s (x :: D)) = rank b - 2).
  { rewrite <- without_without. rewrite Rb. assert (F := free_pos_occ (without s D) x (length (without s D)) (le_n _)).
    rewrite firstn_all in F. rewrite <- F, Op.
    assert (F2 : length (free_pos (length (without s D)) [p0; p1]) + length [p0; p1] = length (without s D)).
    { apply free_pos_length; [repeat constructor; cbn; intuition lia|repeat constructor; lia]. }
    cbn [length] in F2. lia. }
  assert (Rr : rank r = rank b - 2) by (unfold rank at 1; rewrite Sr, repeat_length; reflexivity).
  assert (Cr : cubic n r) by (split; [exact Wr|rewrite Sr, Rr; reflexivity]).
  set (i' := indices_without s i (x :: D)).
  assert (Li' : length i' = rank r) by (unfold i'; rewrite indices_without_length by auto; congruence).
  assert (Vi' : valid_cfg i') by (apply indices_without_valid, Vi).
  assert (Hcc := proj1 Hc).
  exists (length (heap w)), (fresh_world w CTensor (tobj "TEMP" (o_symbol o) i' c m r)). split.
  - unfold trace_step. rewrite C2. cbn [Nat.ltb Nat.leb Nat.eqb]. rewrite positions_occ, Op. cbn [nth].
    rewrite (bind_ok _ _ t w w) by reflexivity. rewrite (bind_ok _ _ o w w) by (apply getobj_ok, Ho).
    rewrite (bind_ok _ _ z0 w w) by (apply mopt_ok, Ez0). rewrite (bind_ok _ _ z1 w w) by (apply mopt_ok, Ez1).
    rewrite Mo. rewrite (bind_ok _ _ m w w) by reflexivity.
    rewrite (bind_ok _ _ g w w).
    2:{ rewrite (get_default_coords w m om c _ Hom Gc). eapply get_stored; [exact Hm|discriminate|exact Hom|exact Hcc|exact Gd|exact Gz|exact Vz|].
        rewrite Gi. reflexivity. }
    rewrite (bind_ok _ _ b w w).
    2:{ rewrite (get_default w t o c Ho (proj1 Hs)). eapply stored_default_get; eauto. rewrite Eo. apply indices_without_valid, Vi. }
    rewrite (bind_ok _ _ r w w) by (apply mlift_ok, Er). rewrite (bind_ok _ _ o w w) by (apply getobj_ok, Ho).
    rewrite (selected_without x (without s D)).
    2:{ rewrite Eo. apply indices_without_length. auto. }
    2:{ intros q Hq'. assert (Hin := occ_in (without s D) x q). rewrite Op in Hin.
        destruct (existsb (Nat.eqb q) [p0; p1]) eqn:E1, (smem (nth q (without s D) ""%string) [x]) eqn:E2; try reflexivity.
        - apply existsb_eqb_true, Hin in E1. apply smem_out in E2. exfalso. apply E2. left. symmetry. apply E1.
        - apply existsb_eqb_false in E1. apply smem_in in E2 as [E2|[]]. exfalso. apply E1, Hin. auto. }
    rewrite Eo, indices_without_without by auto. fold i'. rewrite Mo, (proj1 Hs).
    rewrite (bind_ok _ _ _ _ _ (make_tensor_ok w CTensor "TEMP" r m c i' (o_symbol o) n Hm Hc Cr Vi' Li')).
    unfold mret. do 3 f_equal. rewrite <- without_without, (without_eq (without s D)).
    apply filter_ext. intros y. unfold smem. cbn [existsb]. rewrite orb_false_r, String.eqb_sym. reflexivity.
  - split; [apply HP, HPw|]. split; [|split; [|split; [|split; [|split; [|split]]]]].
    + apply typed_fresh; [exact Hty| |]; intros y Hy; injection Hy as <-; assumption.
    + apply system_fresh, Hc.
    + apply cls_fresh_old, Hm.
    + apply obj_fresh_old, Hom.
    + constructor; assumption.
    + intros y [<-|Hy]; [exact H2|apply HD, Hy].
    + exists CTensor, (tobj "TEMP" (o_symbol o) i' c m r), r. split; [apply cls_fresh_new|]. split; [discriminate|].
      split; [apply obj_fresh_new|]. split; [apply tobj_stored|]. split; [reflexivity|]. split; [reflexivity|]. split; [reflexivity|].
      split; [|right; apply HQ, HPw]. split; [exact Cr|]. split; [congruence|]. intros idx Hidx. rewrite Lcur in Hidx.
      assert (E := Vr [] idx). cbn [app] in E. rewrite E; [|split; [reflexivity|constructor]|exact Hidx]. clear E.
      cbn [map fst snd]. rewrite !Nat2Z.id.
      rewrite lsum_tuples_S. cbn [length]. rewrite lsum_tuples_S. apply nsum_ext. intros kk Hkk.
      rewrite lsum_tuples_1.
      rewrite (nsum_ext n _ (fun l => lsum (tuples n (length D)) (fun ks => lsum (tuples n (length D)) (fun ls =>
        kmul (kmul (aget g [kk; l]) (trace_factor s i G D ks ls)) (aget a (merge s (x :: D) (kk :: ks) (l :: ls) idx)))))).
      2:{ intros l Hl'. rewrite (Vb (place (rank b) [p0; p1] [kk; l] idx)) by (rewrite <- Rb; apply place_range; [exact Hidx|exact Hp|rewrite Rb; exact Lp|exact Hkk|exact Hl']).
          change (place 2 [Z.to_nat 0; Z.to_nat 1] [kk; l] []) with [kk; l].
          rewrite <- lsum_scale. apply lsum_ext. intros ks _. rewrite <- lsum_scale. apply lsum_ext. intros ls _.
          rewrite <- (merge_step s D x p0 p1 kk l ks ls idx Hx Op Hp). rewrite <- Rb. ring. }
      unfold nsum at 1. rewrite lsum_swap. apply lsum_ext. intros ks _. rewrite lsum_tuples_S. unfold nsum. apply lsum_ext. intros l _.
      apply lsum_ext. intros ls _. cbn [trace_factor]. rewrite Oq. cbn [nth]. reflexivity.
Qed.

(** The loop over the symbols. *)
Lemma loop_run l w t D : trace_inv w t D -> (forall y, In y s -> count String.eqb y s = 2 -> In y D \/ In y l) ->
  (forall y, In y l -> count String.eqb y s <= 2) ->
  exists t' w' D', mfold trace_step l (Some t, without s D) w = (Ok (Some t', without s D'), w') /\ trace_inv w' t' D' /\
    forall y, In y D' <-> count String.eqb y s = 2.
Proof.
  revert w t D. induction l as [|x l IH]; intros w t D HI Hcov Hle.
  - exists t, w, D. split; [reflexivity|]. split; [exact HI|]. intros y. split; [apply HI|]. intros H2.
    destruct (Hcov y) as [H|[]]; [apply count_in; lia|exact H2|exact H].
  - cbn [mfold]. assert (Hx := Hle x (or_introl eq_refl)).
    destruct (in_dec string_dec x D) as [Hin|Nin].
    + rewrite (bind_ok _ _ (Some t, without s D) w w).
      * apply IH; [exact HI| |intros y Hy; apply Hle; right; exact Hy]. intros y Hy H2. destruct (Hcov y Hy H2) as [H|[<-|H]]; auto.
      * unfold trace_step. rewrite (count_gone s D x Hin). reflexivity.
    + destruct (Nat.eq_dec (count String.eqb x s) 2) as [H2|N2].
      * destruct (step_run w t D x HI Nin H2) as (t' & w' & E & HI'). rewrite (bind_ok _ _ _ _ _ E).
        apply IH; [exact HI'| |intros y Hy; apply Hle; right; exact Hy]. intros y Hy H2'. destruct (Hcov y Hy H2') as [H|[<-|H]]; cbn; auto.
      * rewrite (bind_ok _ _ (Some t, without s D) w w).
        -- apply IH; [exact HI| |intros y Hy; apply Hle; right; exact Hy]. intros y Hy H2. destruct (Hcov y Hy H2) as [H|[<-|H]]; auto; contradiction.
        -- unfold trace_step. rewrite count_without by exact Nin. destruct (Nat.ltb_spec 2 (count String.eqb x s)); [lia|].
           destruct (Nat.eqb_spec (count String.eqb x s) 2); [contradiction|reflexivity].
Qed.
Lemma loop_error l w t D : trace_inv w t D -> (exists y, In y l /\ 2 < count String.eqb y s) ->
  exists w', mfold trace_step l (Some t, without s D) w = (Err EValueError, w').
Proof.
  revert w t D. induction l as [|x l IH]; intros w t D HI (y & Hy & H3); [destruct Hy|]. cbn [mfold].
  destruct (in_dec string_dec x D) as [Hin|Nin].
  - rewrite (bind_ok _ _ (Some t, without s D) w w).
    + apply IH; [exact HI|]. exists y. split; [|exact H3]. destruct Hy as [<-|Hy]; [|exact Hy].
      destruct HI as (_ & _ & _ & _ & _ & _ & H & _). specialize (H x Hin). lia.
    + unfold trace_step. rewrite (count_gone s D x Hin). reflexivity.
  - destruct (Nat.ltb_spec 2 (count String.eqb x s)) as [Hgt|Hle].
    + exists w. apply bind_err. unfold trace_step. rewrite count_without by exact Nin.
      destruct (Nat.ltb_spec 2 (count String.eqb x s)); [reflexivity|lia].
    + assert (Hy' : In y l) by (destruct Hy as [<-|Hy]; [lia|exact Hy]).
      destruct (Nat.eq_dec (count String.eqb x s) 2) as [H2|N2].
      * destruct (step_run w t D x HI Nin H2) as (t' & w' & E & HI'). rewrite (bind_ok _ _ _ _ _ E).
        apply IH; [exact HI'|]. exists y. auto.
      * rewrite (bind_ok _ _ (Some t, without s D) w w); [apply IH; eauto|].
        unfold trace_step. rewrite count_without by exact Nin. destruct (Nat.ltb_spec 2 (count String.eqb x s)); [lia|].
        destruct (Nat.eqb_spec (count String.eqb x s) 2); [contradiction|reflexivity].
Qed.
End TraceP.

Section TraceThm.
Context {A : AlgOps} {L : AlgLaws A}.
Add Ring Kring : kring (setoid keq_equiv kring_ext).

Lemma init_inv (P : world -> Prop) (Q : oid -> Prop) w t k o m om c n G a s : P w -> typed w -> cls_of w t = Some k -> k <> CCoordinates -> obj_of w t = Some o -> stored_default o c a ->
  cubic n a -> rank a = length (o_indices o) -> o_rank o = length (o_indices o) -> valid_cfg (o_indices o) -> length s = length (o_indices o) ->
  o_metric o = Some m -> obj_of w m = Some om -> metric_tables n om c G -> coordinate_system w c n ->
  trace_inv n s (o_indices o) G a m c om P Q w t [].
Proof.
  intros HPw Hty Hk Nk Ho Hs Ha Ra Ro V Hl Mo Hom HG Hc. split; [exact HPw|]. split; [exact Hty|]. split; [exact Hc|].
  split; [destruct (Hty t o Ho) as [H _]; apply H, Mo|]. split; [exact Hom|]. split; [constructor|]. split; [intros y []|].
  exists k, o, a. split; [exact Hk|]. split; [exact Nk|]. split; [exact Ho|]. split; [exact Hs|]. split; [exact Mo|].
  split; [rewrite indices_without_nil by auto; reflexivity|]. split; [exact Ro|].
  split; [|left; reflexivity]. split; [exact Ha|]. rewrite without_nil. split; [congruence|]. intros idx Hidx. cbn [length tuples lsum]. unfold lsum. cbn [fold_right map trace_factor].
  rewrite merge_nil by apply Hidx. ring.
Qed.

Theorem trace_full (P : world -> Prop) (Q : oid -> Prop) w t k o m om c n G a s : (forall w sy i' r, P w -> P (fresh_world w CTensor (tobj "TEMP" sy i' c m r))) -> (forall w, P w -> Q (length (heap w))) -> P w -> 1 <= n -> typed w -> cls_of w t = Some k -> k <> CCoordinates -> obj_of w t = Some o -> stored_default o c a ->
  cubic n a -> rank a = length (o_indices o) -> o_rank o = length (o_indices o) -> valid_cfg (o_indices o) -> length s = length (o_indices o) ->
  o_metric o = Some m -> obj_of w m = Some om -> metric_tables n om c G -> coordinate_system w c n ->
  (forall x, count String.eqb x s <= 2) ->
  exists D z w' t' o' b, calc_call t s w = (Ok z, w') /\ (P w' /\ (D = [] \/ Q t')) /\ (exists k', cls_of w' t' = Some k' /\ k' <> CCoordinates) /\
    NoDup D /\ (forall x, In x D <-> count String.eqb x s = 2) /\
    z = mkCalc (Some t') (without s D) RTensor /\ obj_of w' t' = Some o' /\ o_metric o' = Some m /\
    o_indices o' = indices_without s (o_indices o) D /\ o_rank o' = length (o_indices o') /\ stored_default o' c b /\
    cubic n b /\ rank b = length (o_indices o') /\
    forall f, (forall x, In x (without s D) -> f x < n) ->
      keq (aget b (map f (without s D)))
          (lsum (tuples n (length D)) (fun ks => lsum (tuples n (length D)) (fun ls =>
             kmul (trace_factor s (o_indices o) G D ks ls) (aget a (trace_index s D ks ls f))))).
Proof.
  intros HP HQ HPw Hn Hty Hk Nk Ho Hs Ha Ra Ro V Hl Mo Hom HG Hc Hcount.
  assert (HI := init_inv P Q w t k o m om c n G a s HPw Hty Hk Nk Ho Hs Ha Ra Ro V Hl Mo Hom HG Hc).
  destruct (loop_run n s (o_indices o) G a m c om Hn Hl V HG P HP Q HQ s w t [] HI) as (t' & w' & D & E & HI' & HD); [auto|auto|].
  destruct HI' as (HPw' & _ & _ & _ & _ & Nd & _ & k' & o' & b & Hk' & Nk' & Ho' & Hs' & Mo' & Ei' & Ro' & (Cb & Rb & Vb) & HQ').
  exists D, (mkCalc (Some t') (without s D) RTensor), w', t', o', b.
  split.
  { unfold calc_call, calc_init. rewrite (bind_ok _ _ tt w w) by (rewrite Hk; destruct k; congruence).
    rewrite (bind_ok _ _ tt w w).
    2:{ rewrite (bind_ok _ _ o w w) by (apply getobj_ok, Ho).
        rewrite (bind_ok _ _ a w w).
        2:{ rewrite (get_default w t o c Ho (proj1 Hs)). eapply stored_default_get; eauto. apply Hc. }
        apply mlift_ok, validate_ok; [exact V|intros q Hq; injection Hq as <-; auto|discriminate]. }
    rewrite without_nil in E. rewrite (bind_ok _ _ _ _ _ E). reflexivity. }
  split; [split; [exact HPw'|exact HQ']|]. split; [exists k'; auto|]. split; [exact Nd|]. split; [exact HD|]. split; [reflexivity|]. split; [exact Ho'|]. split; [exact Mo'|]. split; [exact Ei'|]. split; [exact Ro'|].
  split; [exact Hs'|]. split; [exact Cb|]. split; [rewrite Rb, Ei', indices_without_length by auto; reflexivity|].
  intros f Hf. rewrite Vb.
  - apply lsum_ext. intros ks _. apply lsum_ext. intros ls _. rewrite merge_map. reflexivity.
  - split; [apply map_length|]. apply Forall_forall. intros q Hq. apply in_map_iff in Hq as (x & <- & Hx). apply Hf, Hx.
Qed.

Theorem trace_total w t k o m om c n G a s : 1 <= n -> typed w -> cls_of w t = Some k -> k <> CCoordinates -> obj_of w t = Some o -> stored_default o c a ->
  cubic n a -> rank a = length (o_indices o) -> o_rank o = length (o_indices o) -> valid_cfg (o_indices o) -> length s = length (o_indices o) ->
  o_metric o = Some m -> obj_of w m = Some om -> metric_tables n om c G -> coordinate_system w c n ->
  (forall x, count String.eqb x s <= 2) ->
  exists D z w' t' o' b, calc_call t s w = (Ok z, w') /\
    NoDup D /\ (forall x, In x D <-> count String.eqb x s = 2) /\
    z = mkCalc (Some t') (without s D) RTensor /\ obj_of w' t' = Some o' /\ o_metric o' = Some m /\
    o_indices o' = indices_without s (o_indices o) D /\ o_rank o' = length (o_indices o') /\ stored_default o' c b /\
    cubic n b /\ rank b = length (o_indices o') /\
    forall f, (forall x, In x (without s D) -> f x < n) ->
      keq (aget b (map f (without s D)))
          (lsum (tuples n (length D)) (fun ks => lsum (tuples n (length D)) (fun ls =>
             kmul (trace_factor s (o_indices o) G D ks ls) (aget a (trace_index s D ks ls f))))).
Proof.
  intros Hn Hty Hk Nk Ho Hs Ha Ra Ro V Hl Mo Hom HG Hc Hcount.
  destruct (trace_full (fun _ => True) (fun _ => True) w t k o m om c n G a s) as (D & z & w' & t' & o' & b & E & _ & _ & H); auto.
  exists D, z, w', t', o', b. auto.
Qed.

Theorem trace_error w t k o m om c n G a s : 1 <= n -> typed w -> cls_of w t = Some k -> k <> CCoordinates -> obj_of w t = Some o -> stored_default o c a ->
  cubic n a -> rank a = length (o_indices o) -> o_rank o = length (o_indices o) -> valid_cfg (o_indices o) -> length s = length (o_indices o) ->
  o_metric o = Some m -> obj_of w m = Some om -> metric_tables n om c G -> coordinate_system w c n ->
  (exists x, 2 < count String.eqb x s) ->
  exists w', calc_call t s w = (Err EValueError, w').
Proof.
  intros Hn Hty Hk Nk Ho Hs Ha Ra Ro V Hl Mo Hom HG Hc (x & Hx).
  assert (HI := init_inv (fun _ => True) (fun _ => True) w t k o m om c n G a s I Hty Hk Nk Ho Hs Ha Ra Ro V Hl Mo Hom HG Hc).
  destruct (loop_error n s (o_indices o) G a m c om Hn Hl V HG (fun _ => True) (fun _ _ _ _ _ => I) (fun _ => True) (fun _ _ => I) s w t [] HI) as (w' & E).
  { exists x. split; [apply count_in; lia|exact Hx]. }
  exists w'. unfold calc_call, calc_init. rewrite (bind_ok _ _ tt w w) by (rewrite Hk; destruct k; congruence).
  rewrite (bind_ok _ _ tt w w).
  2:{ rewrite (bind_ok _ _ o w w) by (apply getobj_ok, Ho).
      rewrite (bind_ok _ _ a w w).
      2:{ rewrite (get_default w t o c Ho (proj1 Hs)). eapply stored_default_get; eauto. apply Hc. }
      apply mlift_ok, validate_ok; [exact V|intros q Hq; injection Hq as <-; auto|discriminate]. }
  rewrite without_nil in E. apply bind_err, E.
Qed.
End TraceThm.
