(** The covariant derivative: the statements collected. *)
From Coq Require Import Ascii.
From Verif Require Import Alg Alg_P Arr Arr_P Spec UtilsM Utils_P Arr2_P Act_P RL_P TensorM WorldM SpecWorld World_P Registry_P CalcM SpecCalc Keep_P Calc_P Calc2_P Calc3_P Calc4_P Trace_P Run_P CurvM SpecCurv SpecCov Form_P Form2_P CurvRun_P CurvRun2_P Cov_P Cov2_P.
Local Open Scope nat_scope.

(** *** The dummy symbols *)
Lemma letters_all s : In s all_symbols <-> letter s.
Proof.
  split.
  - intros H. cbn in H. repeat (destruct H as [<-|H]; [eexists; split; [reflexivity|cbn; lia]|]). destruct H.
  - intros (ch & -> & H). destruct ch as [[] [] [] [] [] [] [] []]; cbn in H; try lia; cbn; auto 30.
Qed.
Lemma two_unused letters l : free_letters letters l -> exists d p r, filter (fun s => negb (smem s l)) letters = d :: p :: r /\ d <> p /\ ~ In d l /\ ~ In p l.
Proof.
  intros (Nl & x & y & Lx & Ly & N & Hx & Hy). set (u := filter _ letters).
  assert (Hin : forall s, In s u <-> In s letters /\ ~ In s l) by (intros s; unfold u; rewrite filter_In, negb_true_iff, smem_out; tauto).
  assert (Nu : NoDup u) by (apply NoDup_filter, Nl).
  assert (Ix : In x u) by (apply Hin; auto). assert (Iy : In y u) by (apply Hin; auto).
  destruct u as [|d [|p r]]; [destruct Ix|destruct Ix as [<-|[]], Iy as [<-|[]]; congruence|].
  exists d, p, r. split; [reflexivity|]. inversion Nu as [|? ? N1 _]; subst. split; [intros ->; apply N1; left; reflexivity|].
  split; apply Hin; cbn; auto.
Qed.
Lemma default_letters l : two_letters_free l -> free_letters all_symbols l.
Proof.
  intros (x & y & Lx & Ly & H). split; [apply distinctb_spec; reflexivity|]. exists x, y. rewrite !letters_all. tauto.
Qed.
Lemma free_letters_incl letters l l' : (forall s, In s l' -> In s l) -> free_letters letters l -> free_letters letters l'.
Proof. intros H (N & x & y & Ix & Iy & Nxy & Hx & Hy). split; [exact N|]. exists x, y. repeat split; auto. Qed.

Lemma find_symbol (a : string) syms : NoDup syms -> In a syms -> exists l1 l2, syms = l1 ++ a :: l2 /\ ~ In a (l1 ++ l2) /\ NoDup (l1 ++ l2).
Proof. intros Ns Ha. destruct (in_split _ _ Ha) as (l1 & l2 & ->). exists l1, l2. apply NoDup_remove in Ns as [H1 H2]. auto. Qed.

Section Cov.
Context {A : AlgOps} {L : AlgLaws A} {D : DiffLaws A}.
Add Ring Kring : kring (setoid keq_equiv kring_ext).
Variables (n : nat) (m c : oid) (name : string) (xs : list string) (g gi : nat -> nat -> K).
Notation session w := (metric_session w n m c name xs g gi).
Notation known w := (known_results n xs g gi w m c name).
Notation known_all := (known_all n m c name xs g gi).
Notation value w := (tensor_value w n m c).
Notation Gam := (Gam n xs g gi).

Lemma holds_of_values s (i : list Z) b (F : (string -> nat) -> K) h : NoDup s -> length s = length i -> cubic n b -> rank b = length i ->
  (forall f, (forall x, In x s -> f x < n) -> keq (aget b (map f s)) (F f)) ->
  (forall f, (forall x, In x s -> f x < n) -> keq (F f) (h (map f s))) -> holds n (length i) b h.
Proof.
  intros Ns Ls Cb Rb Vb Vh. split; [exact Cb|]. split; [exact Rb|]. intros idx [Hl Hr].
  assert (Em : map (assign s idx (fun _ => 0)) s = idx) by (apply assign_map; [exact Ns|congruence]).
  assert (Hb : forall y, In y s -> assign s idx (fun _ => 0) y < n).
  { intros y Hy. apply (proj1 (Forall_forall _ _) Hr). apply (eq_ind _ (fun l => In (assign s idx (fun _ => 0) y) l) (in_map _ _ _ Hy) _ Em). }
  rewrite <- Em. rewrite (Vb _ Hb). apply Vh, Hb.
Qed.

Lemma known_all_temp w w' : known_all w -> addsn m c ["TEMP"%string] w w' -> known_all w'.
Proof.
  intros Ka Ad s i h Hs. assert (Nn := suffix_not_temp name s (results_length n xs g gi _ _ _ Hs)).
  eapply known_keep; [exact Ad|exact Nn| |apply Ka, Hs]. intros [E|[]]. congruence.
Qed.

(** The derivative in terms of the last steps. *)
Lemma product_run w t i h syms s1 s2 free p d (ps : M (string * string)) ri :
  session w -> known_all w -> value w t i h -> ~ named w "TEMP" t -> valid_cfg i -> NoDup syms -> length syms = length i ->
  ~ In p syms -> ~ In d syms -> p <> d -> (forall w, ps w = (Ok (d, p), w)) ->
  ri = match shared s1 s2 with [] => (-1)%Z :: select i syms free | _ => select i syms free end -> valid_cfg ri ->
  NoDup free -> length free = length ri ->
  forall F (H : list nat -> K),
  (forall w0 w tx, session w0 -> form w0 m c w -> value w tx (-1 :: i)%Z (fun idx => covariant_of n (cx xs) Gam i h (nth 0 idx 0) (tl idx)) ->
     exists i', length i' = length ri /\ runs w0 m c w (calc_call tx (s1 ++ s2)) (fun y w' => tens n m c w' y free i' F)) ->
  (forall f, (forall x, In x free -> f x < n) -> keq (F f) (H (map f free))) ->
  yields n xs g gi (covariant_product t (mkCalc (Some t) syms RTensor) s1 s2 free ps) m c name [(name ++ " Christoffel")%string] free ri H w.
Proof.
  intros HS0 Ka0 Vt0 Nt0 Vi Ns Ls Np Nd Npd Hps Eri Vri Nf Lf F H Hcall HF.
  set (rf := fun i => match shared s1 s2 with [] => (-1)%Z :: select i syms free | _ => select i syms free end). change (ri = rf i) in Eri. subst ri. set (ri := rf i) in *.
  destruct (christoffel_done n m c name xs g gi w HS0 Ka0) as (chr & w1 & E1 & G1 & Ad & Ka & _ & _ & Vc).
  assert (HS := session_addsn n m c name xs g gi _ _ _ HS0 G1 Ad). assert (Vt := value_adds m c _ _ _ _ _ _ _ Ad Nt0 Vt0).
  destruct Vt0 as (k & o & a & Hk & Nk & Ho & Mo & _). assert (Nt : ~ named w1 "TEMP" t).
  { intros (o1 & Ho1 & En). destruct Ad as (_ & a2 & _). destruct (a2 t o Ho) as (Ho2 & _); [intros E; apply Nt0; exists o; auto|]. apply Nt0. exists o. split; [exact Ho|congruence]. }
  assert (Vt' := Vt). destruct Vt' as (k1 & o1 & a1 & Hk1 & Nk1 & Ho1 & Mo1 & Ei1 & _).
  assert (R : reach w1 (let! dp := PartialD [p] in
    let! x := matmul0 dp (mkCalc (Some t) syms RTensor) in
    let! ups := connection_terms chr t syms i 1 p d in
    let! u := calc_sum ups in
    let! x := calc_add x u in
    let! downs := connection_terms chr t syms i (-1) p d in
    let! l := calc_sum downs in
    let! x := calc_sub x l in
    let! tx := tensor_of x in
    let! y := calc_call tx (s1 ++ s2) in
    let! r := run_calc y "Result" "" free in
    let! a := get_components r None None in
    let! o := getobj t in
    delete r true ;;
    let! t' := make_tensor CTensor "TEMP" (amap simp a) (o_metric o) (o_coords o) (rf (o_indices o)) "T" in
    calc_init (Some t') free RTensor)
    (fun z w' => exists b, result_is w' z free m c ri b /\ holds n (length ri) b H /\ good w' /\ addsn m c ["TEMP"%string] w1 w')).
  { apply (expand_run w1 n m c name xs g gi HS chr t i h syms p d Ns Ls Vi Np Nd Npd Vc Vt). intros x w2 F2 T2.
    destruct (value_of_tens n m c w2 x _ _ _ T2) as (tx & Etx & Nx & Lx & Vx & Vtx). unfold tensor_of, reach.
    rewrite (bind_ok _ _ tx w2 w2) by (rewrite Etx; reflexivity).
    assert (Vtx' : value w2 tx (-1 :: i)%Z (fun idx => covariant_of n (cx xs) Gam i h (nth 0 idx 0) (tl idx))).
    { destruct Vtx as (k2 & o2 & a2 & Q1 & Q2 & Q3 & Q4 & Q5 & Q6 & Q7 & (Q8 & Q9 & Q10)). exists k2, o2, a2. do 7 (split; [assumption|]). split; [exact Q8|]. split; [exact Q9|].
      intros idx Hidx. rewrite (Q10 idx Hidx). destruct idx as [|k0 idx]; [destruct Hidx as [Hl _]; discriminate|].
      assert (Em := assign_map (p :: syms) (k0 :: idx) (fun _ => 0) Nx). cbn [map] in Em. destruct Hidx as [Hl _]. specialize (Em (eq_trans Hl (eq_sym Lx))). injection Em as E3 E4.
      cbn [nth tl]. rewrite E3, E4. reflexivity. }
    destruct (Hcall w1 w2 tx HS F2 Vtx') as (i' & Li' & y & w3 & E3 & F3 & G3 & T3). rewrite (bind_ok _ _ _ _ _ E3).
    destruct (close_run w1 n m c name xs g gi HS t i h Vt Nt w3 y free i' F rf F3 T3 Vri (eq_sym Li')) as (z & b & w4 & E4 & Rz & Cb & Rb & Vb & G4 & A4).
    exists z, w4. split; [exact E4|]. exists b. split; [exact Rz|]. split; [|split; [exact G4|exact A4]].
    eapply holds_of_values; [exact Nf|exact Lf|exact Cb|exact Rb|exact Vb|exact HF]. }
  destruct R as (z & w' & E & b & Rz & Hb & G' & A').
  assert (Ad' := addsn_trans m c _ _ _ _ _ (proj1 (proj1 (proj2 G'))) Ad A').
  exists z, w', b. split; [|split; [exact Rz|split; [exact Hb|split; [|split]]]].
  - rewrite <- E. unfold covariant_product. rewrite (bind_ok _ _ o w w) by (apply getobj_ok, Ho). rewrite Mo. rewrite (bind_ok _ _ m w w) by reflexivity.
    rewrite (bind_ok _ _ _ _ _ E1). rewrite (bind_ok _ _ _ _ _ (Hps w1)). rewrite (bind_ok _ _ o1 w1 w1) by (apply getobj_ok, Ho1). cbn [c_syms]. rewrite Ei1.
    reflexivity.
  - destruct (addsn_only m c _ _ _ Ad') as [O1 O2]. split; [exact O1|]. intros j Hj. destruct (O2 j Hj) as [Hj'|(s & Hs & Hn)]; [left; exact Hj'|].
    right. exists s. split; [|exact Hn]. cbn in Hs |- *. tauto.
  - eapply session_addsn; eauto.
  - apply known_all_spec. eapply known_all_temp; eauto.
Qed.

(** The derivative gets the first place. *)
Lemma gradient_product w t i h syms s1 s2 p d (ps : M (string * string)) :
  session w -> known_all w -> value w t i h -> ~ named w "TEMP" t -> valid_cfg i -> NoDup syms -> length syms = length i ->
  ~ In p syms -> ~ In d syms -> p <> d -> (forall w, ps w = (Ok (d, p), w)) ->
  NoDup (s1 ++ s2) -> length (s1 ++ s2) = S (length syms) -> (forall x, In x syms -> In x (s1 ++ s2)) ->
  yields n xs g gi (covariant_product t (mkCalc (Some t) syms RTensor) s1 s2 (free_symbols s1 s2) ps) m c name [(name ++ " Christoffel")%string]
    (s1 ++ s2) (-1 :: i)%Z (fun idx => covariant_of n (cx xs) Gam i h (nth 0 idx 0) (tl idx)) w.
Proof.
  intros HS Ka Vt Nt Vi Ns Ls Np Nd Npd Hps N12 L12 I12.
  assert (Dis : forall x, In x s1 -> ~ In x s2).
  { clear - N12. intros x H1 H2. induction s1 as [|y l IH]; [destruct H1|]. cbn in N12. inversion N12 as [|? ? N1 N2]; subst. destruct H1 as [->|H1]; [apply N1, in_app_iff; auto|auto]. }
  assert (Ef : free_symbols s1 s2 = s1 ++ s2).
  { rewrite free_split, (without_disjoint s1 s2), (without_disjoint s2 s1) by (intros x H1 H2; apply (Dis x); assumption). reflexivity. }
  assert (Esh : shared s1 s2 = []).
  { unfold shared. clear - Dis. assert (G : forall l, (forall x, In x l -> ~ In x s2) -> flat_map (fun s => match spos s s1, spos s s2 with Some p, Some q => [(s, (p, q))] | _, _ => [] end) l = []).
    { induction l as [|x l IH]; intros H; [reflexivity|]. cbn [flat_map]. rewrite IH by (intros y Hy; apply H; right; exact Hy).
      rewrite (proj2 (spos_none x s2)) by (apply H; left; reflexivity). destruct (spos x s1); reflexivity. }
    apply G, Dis. }
  assert (Esel : select i syms (free_symbols s1 s2) = i).
  { rewrite Ef. rewrite (select_without i syms []) by (intros x Hx; apply I12 in Hx; apply smem_in in Hx; rewrite Hx; reflexivity).
    apply indices_without_nil. auto. }
  assert (Eri : match shared s1 s2 with [] => (-1)%Z :: select i syms (free_symbols s1 s2) | _ => select i syms (free_symbols s1 s2) end = (-1 :: i)%Z) by (rewrite Esh, Esel; reflexivity).
  rewrite Ef in *. eapply (product_run w t i h syms s1 s2 (s1 ++ s2) p d ps (-1 :: i)%Z); try assumption.
  - auto.
  - constructor; [auto|exact Vi].
  - cbn [length]. congruence.
  - intros w0 w1 tx HS1 F1 V1. exists (-1 :: i)%Z. split; [reflexivity|].
    destruct (runs_call w0 n m c name xs g gi HS1 w1 tx (s1 ++ s2) _ _ F1 V1 N12) as (y & w2 & E & F2 & G2 & -> & T).
    + cbn [length]. congruence.
    + constructor; [auto|exact Vi].
    + exists y, w1. split; [exact E|]. split; [exact F1|]. split; [apply grow_refl|exact T].
  - intros f Hf. reflexivity.
Qed.

(** CovariantD("a") @ T(syms), without contraction *)
Lemma gradient_with letters w t i h syms a :
  session w -> known w -> value w t i h -> ~ named w "TEMP" t -> valid_cfg i -> NoDup syms -> length syms = length i ->
  ~ In a syms -> free_letters letters (a :: syms) ->
  yields n xs g gi (matmul_with (Ok letters) (mkCalc None [a] RCovariant) (mkCalc (Some t) syms RTensor)) m c name [(name ++ " Christoffel")%string]
    (a :: syms) (-1 :: i)%Z (fun idx => covariant_of n (cx xs) Gam i h (nth 0 idx 0) (tl idx)) w.
Proof.
  intros HS Ka Vt Nt Vi Ns Ls Na H2. apply known_all_spec in Ka.
  assert (H2' : free_letters letters (syms ++ [a])) by (eapply free_letters_incl; [|exact H2]; intros s Hs; apply in_app_iff in Hs; cbn in *; tauto).
  destruct (two_unused _ _ H2') as (d & q & r & Eu & Ndq & Hd & Hq). rewrite in_app_iff in Hd, Hq. cbn in Hd, Hq.
  unfold matmul_with. cbn [c_role c_syms]. unfold unused, mlift, mbind at 2 3, mret at 1. rewrite Eu.
  assert (Em : exists p, ~ In p syms /\ p <> d /\ forall w, (let! d := mnth (d :: q :: r) 0 in
       let! p := match syms with [] => mnth (d :: q :: r) 1 | _ => let! x := mnth [a] 0 in if smem x syms then mnth (d :: q :: r) 1 else mret x end in mret (d, p)) w = (Ok (d, p), w)).
  { assert (Es : smem a syms = false) by (apply smem_out, Na). destruct syms as [|x0 syms0]; [exists q|exists a].
    - split; [tauto|]. split; [congruence|]. reflexivity.
    - split; [exact Na|]. split; [intuition congruence|]. intros w1. unfold mnth, mbind, mopt. cbn [nth_error]. unfold mret. rewrite Es. reflexivity. }
  destruct Em as (p & Hp & Npd & Hps).
  change (yields n xs g gi (let! t0 := tensor_of (mkCalc (Some t) syms RTensor) in covariant_product t0 (mkCalc (Some t) syms RTensor) [a] syms (free_symbols [a] syms)
    (let! d := mnth (d :: q :: r) 0 in
       let! p := match syms with [] => mnth (d :: q :: r) 1 | _ => let! x := mnth [a] 0 in if smem x syms then mnth (d :: q :: r) 1 else mret x end in mret (d, p))) m c name [(name ++ " Christoffel")%string]
    ([a] ++ syms) (-1 :: i)%Z (fun idx => covariant_of n (cx xs) Gam i h (nth 0 idx 0) (tl idx)) w).
  apply (gradient_product w t i h syms [a] syms p d); try assumption.
  - tauto.
  - constructor; assumption.
  - reflexivity.
  - cbn. auto.
Qed.

(** T(syms) @ CovariantD("a"), without contraction: the derivative index is the first one of
    the result although the symbols are those of T followed by a. *)
Lemma right_with letters w t i h syms a :
  session w -> known w -> value w t i h -> ~ named w "TEMP" t -> valid_cfg i -> NoDup syms -> length syms = length i ->
  ~ In a syms -> free_letters letters (a :: syms) ->
  yields n xs g gi (matmul_with (Ok letters) (mkCalc (Some t) syms RTensor) (mkCalc None [a] RCovariant)) m c name [(name ++ " Christoffel")%string]
    (syms ++ [a]) (-1 :: i)%Z (fun idx => covariant_of n (cx xs) Gam i h (nth 0 idx 0) (tl idx)) w.
Proof.
  intros HS Ka Vt Nt Vi Ns Ls Na H2. apply known_all_spec in Ka.
  assert (H2' : free_letters letters ([a] ++ syms)) by exact H2.
  destruct (two_unused _ _ H2') as (d & q & r & Eu & Ndq & Hd & Hq). rewrite in_app_iff in Hd, Hq. cbn in Hd, Hq.
  unfold matmul_with. cbn [c_role c_syms]. unfold unused, mlift, mbind at 2 3, mret at 1. rewrite Eu.
  change (yields n xs g gi (let! t0 := tensor_of (mkCalc (Some t) syms RTensor) in covariant_product t0 (mkCalc (Some t) syms RTensor) syms [a] (free_symbols syms [a])
      (let! d := mnth (d :: q :: r) 0 in let! x := mnth [a] 0 in let! p := (if smem x [a] then mnth (d :: q :: r) 1 else mret x) in mret (d, p))) m c name [(name ++ " Christoffel")%string]
    (syms ++ [a]) (-1 :: i)%Z (fun idx => covariant_of n (cx xs) Gam i h (nth 0 idx 0) (tl idx)) w).
  apply (gradient_product w t i h syms syms [a] q d); try assumption.
  - tauto.
  - tauto.
  - congruence.
  - intros w1. unfold mnth, mbind, mopt, smem. cbn [nth_error existsb]. unfold mret. cbn [nth_error]. rewrite String.eqb_refl. reflexivity.
  - apply nodup_app; [exact Ns|repeat constructor; intros []|]. intros x H1 [<-|[]]. contradiction.
  - rewrite app_length. cbn. lia.
  - intros x Hx. apply in_app_iff. auto.
Qed.

(** *** Contraction *)
Lemma count_out_eqb x l : ~ In x l -> count String.eqb x l = 0.
Proof. intros H. destruct (count String.eqb x l) eqn:E; [reflexivity|]. exfalso. apply H, count_in. lia. Qed.
Lemma count_app_eqb x l1 l2 : count String.eqb x (l1 ++ l2) = count String.eqb x l1 + count String.eqb x l2.
Proof. unfold count. rewrite filter_app, app_length. reflexivity. Qed.
Lemma count_nodup_eqb x l : NoDup l -> count String.eqb x l <= 1.
Proof.
  intros H. induction H as [|y l N1 _ IH]; [cbn; lia|]. change (y :: l) with ([y] ++ l). rewrite count_app_eqb. unfold count at 1. cbn [filter].
  destruct (String.eqb_spec x y) as [->|N]; cbn [length]; [rewrite (count_out_eqb y l N1)|]; lia.
Qed.
Lemma filter_none {X} (P : X -> bool) l : (forall x, In x l -> P x = false) -> filter P l = [].
Proof. induction l as [|x l IH]; intros H; [reflexivity|]. cbn. rewrite (H x (or_introl eq_refl)). apply IH. intros y Hy. apply H. right; exact Hy. Qed.
Lemma occurrences_two a l1 l2 : ~ In a (l1 ++ l2) -> occurrences (a :: l1 ++ a :: l2) a = [0; S (length l1)].
Proof.
  intros H. rewrite in_app_iff in H. unfold occurrences. cbn [length seq filter nth]. rewrite String.eqb_refl. f_equal.
  rewrite app_length. cbn [length]. rewrite seq_app. cbn [seq]. rewrite filter_app. cbn [filter].
  rewrite filter_none.
  - cbn [app Nat.add]. rewrite nth_middle. rewrite String.eqb_refl. f_equal.
    apply filter_none. intros q Hq. apply in_seq in Hq. apply String.eqb_neq. destruct q as [|q]; [lia|]. cbn [nth]. rewrite app_nth2 by lia.
    intros E. apply H. right. destruct (q - length l1) as [|r] eqn:Er; [lia|]. cbn [nth] in E. rewrite E. apply nth_In. lia.
  - intros q Hq. apply in_seq in Hq. apply String.eqb_neq. destruct q as [|q]; [lia|]. cbn [nth]. rewrite app_nth1 by lia. intros E. apply H. left. rewrite E. apply nth_In. lia.
Qed.
Lemma nth_map_seq (F : nat -> nat) k q : q < k -> nth q (map F (seq 0 k)) 0 = F q.
Proof. intros H. rewrite (nth_indep _ 0 (F 0)) by (rewrite map_length, seq_length; exact H). rewrite map_nth, seq_nth by exact H. reflexivity. Qed.
Lemma trace_two a l1 l2 k l f : ~ In a (l1 ++ l2) -> trace_index (a :: l1 ++ a :: l2) [a] [k] [l] f = k :: map f l1 ++ l :: map f l2.
Proof.
  intros H. rewrite in_app_iff in H. apply (nth_ext _ _ 0 0); unfold trace_index; rewrite map_length, seq_length; [cbn [length]; rewrite !app_length; cbn [length]; rewrite !map_length; reflexivity|].
  intros q Hq.
  rewrite nth_map_seq by exact Hq. cbn [Nat.add]. cbv zeta. cbn [length] in Hq. rewrite app_length in Hq. cbn [length] in Hq.
  assert (Ha : forall v, assign [a] [v] f a = v) by (intros v; unfold assign; cbn; rewrite String.eqb_refl; reflexivity).
  assert (Hn : forall v x, x <> a -> assign [a] [v] f x = f x).
  { intros v x N. unfold assign. cbn. destruct (String.eqb_spec x a); [contradiction|]. reflexivity. }
  destruct q as [|q]; [cbn [nth firstn existsb]; apply Ha|]. cbn [nth].
  destruct (Nat.lt_trichotomy q (length l1)) as [Hlt|[->|Hgt]].
  - rewrite !app_nth1 by (rewrite ?map_length; lia). assert (N : nth q l1 ""%string <> a) by (intros E; apply H; left; rewrite <- E; apply nth_In, Hlt).
    rewrite !Hn by exact N. rewrite (nth_indep _ 0 (f ""%string)) by (rewrite map_length; lia). rewrite map_nth. destruct existsb; reflexivity.
  - rewrite !nth_middle. cbn [firstn existsb]. rewrite String.eqb_refl. cbn [orb]. rewrite Ha. rewrite app_nth2 by (rewrite map_length; lia). rewrite map_length, Nat.sub_diag. reflexivity.
  - rewrite !app_nth2 by (rewrite ?map_length; lia). rewrite map_length. destruct (q - length l1) as [|r] eqn:Er; [lia|]. cbn [nth].
    assert (N : nth r l2 ""%string <> a) by (intros E; apply H; right; rewrite <- E; apply nth_In; lia).
    rewrite !Hn by exact N. rewrite (nth_indep _ 0 (f ""%string)) by (rewrite map_length; lia). rewrite map_nth. destruct existsb; reflexivity.
Qed.

(** CovariantD("a") @ T(..a..) *)
Lemma divergence_with letters w t i h l1 l2 a :
  session w -> known w -> value w t i h -> ~ named w "TEMP" t -> valid_cfg i -> NoDup (l1 ++ a :: l2) -> length (l1 ++ a :: l2) = length i ->
  free_letters letters (l1 ++ a :: l2) ->
  yields n xs g gi (matmul_with (Ok letters) (mkCalc None [a] RCovariant) (mkCalc (Some t) (l1 ++ a :: l2) RTensor)) m c name [(name ++ " Christoffel")%string]
    (l1 ++ l2) (firstn (length l1) i ++ skipn (S (length l1)) i) (divergence_of n (cx xs) Gam gi i h (length l1)) w.
Proof.
  intros HS Ka Vt Nt Vi Ns Ls H2. apply known_all_spec in Ka. set (syms := l1 ++ a :: l2) in *.
  assert (Hn := NoDup_remove _ _ _ Ns). destruct Hn as [Nl Na].
  assert (Hin : In a syms) by (apply in_app_iff; right; left; reflexivity).
  assert (H2' : free_letters letters (syms ++ [a])) by (eapply free_letters_incl; [|exact H2]; intros s Hs; apply in_app_iff in Hs; destruct Hs as [Hs|[<-|[]]]; [exact Hs|exact Hin]).
  destruct (two_unused _ _ H2') as (d & p & r & Eu & Ndq & Hd & Hq). rewrite in_app_iff in Hd, Hq. cbn in Hd, Hq.
  unfold matmul_with. cbn [c_role c_syms]. unfold unused, mlift, mbind at 2 3, mret at 1. rewrite Eu.
  assert (Hps : forall w, (let! d := mnth (d :: p :: r) 0 in
       let! p := match syms with [] => mnth (d :: p :: r) 1 | _ => let! x := mnth [a] 0 in if smem x syms then mnth (d :: p :: r) 1 else mret x end in mret (d, p)) w = (Ok (d, p), w)).
  { intros w1. assert (Es : smem a syms = true) by (apply smem_in, Hin). destruct syms as [|x0 syms0]; [destruct Hin|].
    unfold mnth, mbind, mopt. cbn [nth_error]. unfold mret. rewrite Es. reflexivity. }
  assert (Ew : without syms [a] = l1 ++ l2).
  { unfold syms. rewrite without_eq, filter_app. cbn [filter]. rewrite (proj2 (smem_in a [a])) by (left; reflexivity). cbn [negb]. rewrite <- filter_app, <- without_eq.
    apply without_disjoint. intros x Hx [<-|[]]. contradiction. }
  assert (Ef : free_symbols [a] syms = l1 ++ l2).
  { rewrite free_split, (without_one' a syms Hin), Ew. reflexivity. }
  assert (Esh : shared [a] syms <> []).
  { destruct (spos_in a syms Hin) as (j & Hj & _). rewrite (shared_one a syms j Hj). discriminate. }
  assert (Esel : select i syms (l1 ++ l2) = indices_without syms i [a]) by (rewrite <- Ef; apply select_without; intros x Hx; apply smem_free2, Hx).
  unfold syms in Ls. rewrite app_length in Ls. cbn [length] in Ls.
  assert (Hsp : exists i1 z i2, i = i1 ++ z :: i2 /\ length i1 = length l1).
  { exists (firstn (length l1) i), (nth (length l1) i 0%Z), (skipn (S (length l1)) i). split; [|apply firstn_length_le; lia].
    rewrite <- (firstn_skipn (length l1) i) at 1. f_equal. clear - Ls. revert i Ls. induction l1 as [|x l IH]; intros [|z i] Ls; cbn [length Nat.add] in Ls; try lia; [reflexivity|]. cbn [length skipn nth]. apply IH. lia. }
  destruct Hsp as (i1 & z & i2 & -> & L1).
  assert (Eiw : indices_without syms (i1 ++ z :: i2) [a] = i1 ++ i2).
  { unfold syms. rewrite indices_without_append by exact L1. rewrite indices_without_in by (left; reflexivity).
    rewrite app_length in Ls. cbn [length] in Ls. rewrite in_app_iff in Na.
    rewrite !indices_without_disjoint; [reflexivity|lia|intros x Hx [<-|[]]; tauto|lia|intros x Hx [<-|[]]; tauto]. }
  assert (Eri : firstn (length l1) (i1 ++ z :: i2) ++ skipn (S (length l1)) (i1 ++ z :: i2) = i1 ++ i2).
  { rewrite <- L1. rewrite firstn_app, firstn_all, Nat.sub_diag. cbn [firstn]. rewrite app_nil_r. f_equal.
    replace (S (length i1)) with (length (i1 ++ [z])) by (rewrite app_length; cbn; lia). change (z :: i2) with ([z] ++ i2). rewrite app_assoc, skipn_app, skipn_all, Nat.sub_diag. reflexivity. }
  rewrite Eri.
  change (yields n xs g gi (let! t0 := tensor_of (mkCalc (Some t) syms RTensor) in covariant_product t0 (mkCalc (Some t) syms RTensor) [a] syms (free_symbols [a] syms)
    (let! d := mnth (d :: p :: r) 0 in
       let! p := match syms with [] => mnth (d :: p :: r) 1 | _ => let! x := mnth [a] 0 in if smem x syms then mnth (d :: p :: r) 1 else mret x end in mret (d, p))) m c name [(name ++ " Christoffel")%string]
    (l1 ++ l2) (i1 ++ i2) (divergence_of n (cx xs) Gam gi (i1 ++ z :: i2) h (length l1)) w).
  rewrite Ef.
  eapply (product_run w t (i1 ++ z :: i2) h syms [a] syms (l1 ++ l2) p d _ (i1 ++ i2)) with
    (F := fun f => nsum n (fun k => nsum n (fun l => kmul (gval g gi 1 (- z) k l) (covariant_of n (cx xs) Gam (i1 ++ z :: i2) h k (map f l1 ++ l :: map f l2))))); try assumption.
  - unfold syms. rewrite !app_length in *. cbn [length] in *. lia.
  - tauto.
  - tauto.
  - congruence.
  - rewrite Esel, Eiw. destruct (shared [a] syms); [congruence|reflexivity].
  - unfold valid_cfg in *. apply Forall_app in Vi as [V1 V2]. inversion V2; subst. apply Forall_app; auto.
  - rewrite !app_length in *. cbn [length] in Ls. lia.
  - intros w0 w1 tx HS1 F1 V1. exists (i1 ++ i2). split; [reflexivity|].
    assert (VC : valid_cfgb (-1 :: i1 ++ z :: i2)%Z = true).
    { unfold valid_cfgb. apply forallb_forall. intros y [<-|Hy]; [reflexivity|]. unfold valid_cfg in Vi. rewrite Forall_forall in Vi. destruct (Vi y Hy) as [-> | ->]; reflexivity. }
    destruct (r_trace n m c name xs g gi w0 w1 tx ([a] ++ syms) (-1 :: i1 ++ z :: i2)%Z (fun idx => covariant_of n (cx xs) Gam (i1 ++ z :: i2) h (nth 0 idx 0) (tl idx)) a 0 (S (length l1)) (l1 ++ l2) (i1 ++ i2) HS1 F1 V1) as (y & w2 & E & F2 & G2 & T).
    + rewrite VC, andb_true_r. apply Nat.eqb_eq. cbn [app length]. unfold syms. rewrite !app_length in *. cbn [length] in *. lia.
    + apply andb_true_intro. split.
      * apply Nat.eqb_eq. unfold syms. change (a :: l2) with ([a] ++ l2). rewrite !count_app_eqb. rewrite in_app_iff in Na. rewrite (count_out_eqb a l1), (count_out_eqb a l2) by tauto.
        unfold count. cbn [filter]. rewrite String.eqb_refl. reflexivity.
      * apply forallb_forall. intros y Hy. destruct (String.eqb_spec y a) as [|N]; [reflexivity|]. apply Nat.leb_le. rewrite count_app_eqb, (count_out_eqb y [a]) by (intros [|[]]; congruence). apply count_nodup_eqb, Ns.
    + apply occurrences_two, Na.
    + cbn [app]. rewrite without_in_cons by (left; reflexivity). exact Ew.
    + cbn [app]. rewrite indices_without_in by (left; reflexivity). exact Eiw.
    + exists y, w2. split; [exact E|]. split; [exact F2|]. split; [exact G2|]. eapply tens_ext; [|exact T]. intros f Hf. cbv beta. cbn [app].
      apply nsum_ext. intros k Hk. apply nsum_ext. intros l Hl. unfold syms. rewrite (trace_two a l1 l2 k l f Na). cbn [nth tl Z.opp]. rewrite <- L1, nth_middle. reflexivity.
  - intros f Hf. cbv beta. rewrite map_app. unfold divergence_of. rewrite <- L1 at 1. rewrite nth_middle.
    assert (Ins : forall k, inserted (length l1) k (map f l1 ++ map f l2) = map f l1 ++ k :: map f l2).
    { intros k. unfold inserted. rewrite <- (map_length f l1). rewrite firstn_app, firstn_all, Nat.sub_diag, skipn_app, skipn_all, Nat.sub_diag. cbn [firstn skipn app]. rewrite app_nil_r. reflexivity. }
    assert (Hz : z = 1%Z \/ z = (-1)%Z) by (unfold valid_cfg in Vi; rewrite Forall_forall in Vi; apply Vi, in_app_iff; right; left; reflexivity).
    destruct Hz as [-> | ->]; unfold gval; cbn [Z.opp Z.eqb Pos.eqb].
    + apply nsum_ext. intros k Hk. rewrite Ins. apply (nsum_delta_l n k (fun l => covariant_of n (cx xs) Gam (i1 ++ 1%Z :: i2) h k (map f l1 ++ l :: map f l2)) Hk).
    + apply nsum_ext. intros k Hk. apply nsum_ext. intros l Hl. rewrite Ins. reflexivity.
Qed.
End Cov.
