(** The covariant derivative in a session with one metric: the terms with Christoffel symbols. *)
From Verif Require Import Alg Alg_P Arr Arr_P Spec UtilsM Utils_P Arr2_P Act_P RL_P TensorM WorldM SpecWorld World_P Registry_P CalcM SpecCalc Keep_P Calc_P Calc2_P Calc3_P Calc4_P Trace_P Run_P CurvM SpecCurv SpecCov Form_P Form2_P CurvRun_P CurvRun2_P.
Local Open Scope nat_scope.

(** *** Lists of symbols *)
Lemma F2_impl {X Y} (P Q : X -> Y -> Prop) l r : (forall x y, P x y -> Q x y) -> Forall2 P l r -> Forall2 Q l r.
Proof. intros H F. induction F; constructor; auto. Qed.
Lemma combine_append {X Y} (l1 l2 : list X) (r1 r2 : list Y) : length l1 = length r1 -> combine (l1 ++ l2) (r1 ++ r2) = combine l1 r1 ++ combine l2 r2.
Proof. revert r1. induction l1 as [|x l1 IH]; intros [|y r1] H; cbn in *; try discriminate; [reflexivity|]. f_equal. apply IH. lia. Qed.
Lemma combine_fst {X Y} (l : list X) (r : list Y) : length l = length r -> map fst (combine l r) = l.
Proof. revert r. induction l as [|x l IH]; intros [|y r] H; cbn in *; try discriminate; [reflexivity|]. f_equal. apply IH. lia. Qed.
Lemma without_disjoint l D : (forall x, In x l -> ~ In x D) -> without l D = l.
Proof.
  rewrite without_eq. induction l as [|y l IH]; intros H; [reflexivity|]. cbn [filter].
  assert (E : smem y D = false) by (apply smem_out, H; left; reflexivity). rewrite E. cbn [negb]. f_equal. apply IH. intros x Hx. apply H. right; exact Hx.
Qed.
Lemma indices_without_disjoint l i D : length i = length l -> (forall x, In x l -> ~ In x D) -> indices_without l i D = i.
Proof.
  rewrite indices_without_eq. revert i. induction l as [|y l IH]; intros [|z i] Hl H; cbn in Hl; try discriminate; [reflexivity|].
  cbn [combine filter fst]. assert (E : smem y D = false) by (apply smem_out, H; left; reflexivity). rewrite E. cbn [negb map snd]. f_equal.
  apply IH; [lia|]. intros x Hx. apply H. right; exact Hx.
Qed.
Lemma indices_without_append l1 l2 i1 i2 D : length i1 = length l1 -> indices_without (l1 ++ l2) (i1 ++ i2) D = indices_without l1 i1 D ++ indices_without l2 i2 D.
Proof. intros H. rewrite !indices_without_eq, combine_append by auto. rewrite filter_app, map_app. reflexivity. Qed.
Lemma indices_without_in x z l i D : In x D -> indices_without (x :: l) (z :: i) D = indices_without l i D.
Proof. intros H. rewrite !indices_without_eq. cbn [combine filter fst]. apply smem_in in H. rewrite H. reflexivity. Qed.
Lemma indices_without_out x z l i D : ~ In x D -> indices_without (x :: l) (z :: i) D = z :: indices_without l i D.
Proof. intros H. rewrite !indices_without_eq. cbn [combine filter fst]. apply smem_out in H. rewrite H. reflexivity. Qed.
Lemma without_in_cons x l D : In x D -> without (x :: l) D = without l D.
Proof. intros H. rewrite !without_eq. cbn [filter]. apply smem_in in H. rewrite H. reflexivity. Qed.
Lemma without_out_cons x l D : ~ In x D -> without (x :: l) D = x :: without l D.
Proof. intros H. rewrite !without_eq. cbn [filter]. apply smem_out in H. rewrite H. reflexivity. Qed.
Lemma common_in_cons x l D : In x D -> common (x :: l) D = x :: common l D.
Proof. intros H. unfold common. cbn [filter]. apply smem_in in H. unfold smem in H. rewrite H. reflexivity. Qed.
Lemma common_out_cons x l D : ~ In x D -> common (x :: l) D = common l D.
Proof. intros H. unfold common. cbn [filter]. apply smem_out in H. unfold smem in H. rewrite H. reflexivity. Qed.

Definition same_labels (s : list string) (i : list Z) (s' : list string) (i' : list Z) : Prop :=
  length s = length i /\ length s' = length i' /\ Permutation (combine s i) (combine s' i').
Lemma labels_same s i s' i' : same_labels s i s' i' -> Permutation s s' /\ same_indices s i s' i'.
Proof.
  intros (H1 & H2 & H3). split.
  - rewrite <- (combine_fst s i), <- (combine_fst s' i') by assumption. apply Permutation_map, H3.
  - split; [auto|]. split; [auto|]. intros x z. split; apply Permutation_in; [|apply Permutation_sym]; exact H3.
Qed.
Lemma labels_refl s i : length s = length i -> same_labels s i s i.
Proof. intros H. split; [exact H|]. split; [exact H|]. apply Permutation_refl. Qed.
Lemma labels_sym s i s' i' : same_labels s i s' i' -> same_labels s' i' s i.
Proof. intros (H1 & H2 & H3). split; [exact H2|]. split; [exact H1|]. apply Permutation_sym, H3. Qed.
Lemma labels_trans s i s' i' s'' i'' : same_labels s i s' i' -> same_labels s' i' s'' i'' -> same_labels s i s'' i''.
Proof. intros (H1 & H2 & H3) (H4 & H5 & H6). split; [exact H1|]. split; [exact H5|]. eapply Permutation_trans; eauto. Qed.

(** The symbols of the tensor in one term: the symbol at the position j is replaced by d. *)
Lemma renamed j d (s : list string) l1 x l2 : s = l1 ++ x :: l2 -> j = length l1 ->
  map (fun ks : nat * string => if fst ks =? j then d else snd ks) (combine (seq 0 (length s)) s) = l1 ++ d :: l2.
Proof.
  intros -> ->.
  assert (G : forall l o k, o + length l <= k \/ k < o -> map (fun ks : nat * string => if fst ks =? k then d else snd ks) (combine (seq o (length l)) l) = l).
  { induction l as [|y l IH]; intros o k H; [reflexivity|]. cbn [length seq combine map fst snd]. cbn [length] in H. destruct (Nat.eqb_spec o k); [lia|]. f_equal. apply IH. lia. }
  rewrite app_length, seq_app, combine_append by (rewrite seq_length; reflexivity). rewrite map_app. f_equal.
  - apply G. lia.
  - cbn [length seq combine map fst snd Nat.add]. rewrite Nat.eqb_refl. f_equal. apply G. lia.
Qed.

Section Terms.
Context {A : AlgOps} {L : AlgLaws A} {D : DiffLaws A}.
Add Ring Kring : kring (setoid keq_equiv kring_ext).
Variables (w0 : world) (n : nat) (m c : oid) (name : string) (xs : list string) (g gi : nat -> nat -> K).
Hypothesis HS : metric_session w0 n m c name xs g gi.
Notation form := (form w0 m c).
Notation tens := (tens n m c).
Notation runs := (runs w0 m c).
Notation value w := (tensor_value w n m c).
Notation Gam := (Gam n xs g gi).

Lemma tens_value_of w t s i h : value w t i h -> NoDup s -> length s = length i -> valid_cfg i ->
  tens w (mkCalc (Some t) s RTensor) s i (fun f => h (map f s)).
Proof.
  intros (k & o & a & Hk & Nk & Ho & Mo & Ei & Ro & Sd & (Ca & Ra & Va)) Ns Ls V.
  split; [reflexivity|]. exists t, k, o, a. subst i. split.
  { split; [reflexivity|]. split; [reflexivity|]. split; [exact Ho|]. auto. }
  do 7 (split; [auto|]). intros f Hf. apply Va. split; [rewrite map_length; exact Ls|]. apply Forall_forall. intros z Hz.
  apply in_map_iff in Hz as (y & <- & Hy). apply Hf, Hy.
Qed.
Lemma value_of_tens w x s i F : tens w x s i F -> exists t, c_tensor x = Some t /\ NoDup s /\ length s = length i /\ valid_cfg i /\
  value w t i (fun idx => F (assign s idx (fun _ => 0))).
Proof.
  intros (Hs & t & k & o & a & (R & T & O & N & Ln & K & V) & Hk & Nk & Mo & Ei & Sd & Ca & Ra & Va). rewrite Hs, Ei in *.
  exists t. split; [exact T|]. split; [exact N|]. split; [exact Ln|]. split; [exact V|].
  exists k, o, a. split; [exact Hk|]. split; [exact Nk|]. split; [exact O|]. split; [exact Mo|]. split; [exact Ei|]. split; [exact K|].
  split; [exact Sd|]. split; [exact Ca|]. split; [exact Ra|]. intros idx [Hl Hr].
  assert (Em : map (assign s idx (fun _ => 0)) s = idx) by (apply assign_map; [exact N|congruence]).
  rewrite <- Em at 1. apply Va. intros y Hy. apply (proj1 (Forall_forall _ _) Hr).
  apply (eq_ind _ (fun l => In (assign s idx (fun _ => 0) y) l) (in_map _ _ _ Hy) _ Em).
Qed.

(** One term. *)
Variables (chr t : oid) (i : list Z) (h : list nat -> K) (syms : list string) (p d : string).
Hypothesis Ns : NoDup syms.
Hypothesis Ls : length syms = length i.
Hypothesis Vi : valid_cfg i.
Hypothesis Np : ~ In p syms.
Hypothesis Nd : ~ In d syms.
Hypothesis Npd : p <> d.

Definition term_value (up : bool) (j : nat) (f : string -> nat) : K :=
  if up then nsum n (fun k => kmul (Gam (f (nth j syms ""%string)) (f p) k) (h (replaced j k (map f syms))))
  else nsum n (fun k => kmul (Gam k (f p) (f (nth j syms ""%string))) (h (replaced j k (map f syms)))).

Lemma term_run w z j s : form w -> value w chr [1; -1; -1]%Z (at3 Gam) -> value w t i h ->
  nth_error syms j = Some s -> nth_error i j = Some z ->
  runs w (let! gx := calc_call chr (if (z =? 1)%Z then [s; p; d] else [d; p; s]) in
          let! x := calc_call t (map (fun ks => if fst ks =? j then d else snd ks) (combine (seq 0 (length syms)) syms)) in
          matmul0 gx x)
    (fun y w' => exists s' i', tens w' y s' i' (term_value (z =? 1)%Z j) /\ same_labels (p :: syms) (-1 :: i)%Z s' i').
Proof.
  intros Fw Vc Vt Hs Hz.
  destruct (nth_error_split _ _ Hs) as (l1 & l2 & El & Hl1). destruct (nth_error_split _ _ Hz) as (i1 & i2 & Ei & Hi1).
  rewrite (renamed j d syms l1 s l2 El (eq_sym Hl1)).
  assert (Hz' : z = 1%Z \/ z = (-1)%Z) by (apply (proj1 (Forall_forall _ _) Vi); eapply nth_error_In, Hz).
  assert (Ns' := Ns). rewrite El in Ns'. assert (Ns'' := Ns'). apply NoDup_remove in Ns'' as [N12 Hs12].
  assert (Hin : forall y, In y (l1 ++ l2) -> In y syms /\ y <> s).
  { intros y Hy. split; [rewrite El; apply in_app_iff in Hy as [Hy|Hy]; apply in_app_iff; cbn; auto|]. intros ->. contradiction. }
  assert (Is : In s syms) by (rewrite El; apply in_app_iff; cbn; auto).
  assert (Nps : p <> s) by congruence. assert (Nds : d <> s) by congruence.
  assert (Nd12 : ~ In d (l1 ++ l2)) by (intros H; apply Hin in H as [H _]; contradiction).
  assert (Nt : NoDup (l1 ++ d :: l2)).
  { apply NoDup_Add with (a := d) (l := l1 ++ l2); [apply Add_app|]. auto. }
  assert (Lt : length (l1 ++ d :: l2) = length i).
  { rewrite <- Ls, El, !app_length. reflexivity. }
  set (cs := if (z =? 1)%Z then [s; p; d] else [d; p; s]).
  assert (Hcs : forall y, In y cs <-> y = s \/ y = p \/ y = d) by (intros y; unfold cs; destruct (z =? 1)%Z; cbn; intuition congruence).
  assert (Ncs : NoDup cs).
  { unfold cs. destruct (z =? 1)%Z; repeat constructor; cbn; intuition congruence. }
  eapply runs_bind; [eapply (runs_call w0 n m c name xs g gi HS w chr cs); [exact Fw|exact Vc|exact Ncs|unfold cs; destruct (z =? 1)%Z; reflexivity|apply valid_cfgb_spec; reflexivity]|].
  intros gx w1 F1 _ [-> T1]. clear F1.
  eapply runs_bind; [eapply (runs_call w0 n m c name xs g gi HS w t (l1 ++ d :: l2)); [exact Fw|exact Vt|exact Nt|exact Lt|exact Vi]|].
  intros x w1 F1 _ [-> T2]. clear F1.
  assert (Dis : forall y, In y (l1 ++ l2) -> ~ In y cs).
  { intros y Hy Hc. apply Hcs in Hc. destruct (Hin y Hy) as [H1 H2]. destruct Hc as [-> |[-> | ->]]; auto. }
  assert (Ps : ~ In s (l1 ++ d :: l2)).
  { intros H. apply in_app_iff in H as [H|[H|H]]; [apply Hs12, in_app_iff; auto|congruence|apply Hs12, in_app_iff; auto]. }
  assert (Pp : ~ In p (l1 ++ d :: l2)).
  { intros H. apply Np. rewrite El. apply in_app_iff in H as [H|[H|H]]; [apply in_app_iff; auto|congruence|apply in_app_iff; cbn; auto]. }
  assert (Pd : In d (l1 ++ d :: l2)) by (apply in_app_iff; cbn; auto).
  assert (W2 : without (l1 ++ d :: l2) cs = l1 ++ l2).
  { rewrite without_app, without_in_cons by (apply Hcs; auto). rewrite <- without_app. apply without_disjoint, Dis. }
  assert (I2 : indices_without (l1 ++ d :: l2) i cs = i1 ++ i2).
  { rewrite Ei. rewrite indices_without_append by congruence. rewrite indices_without_in by (apply Hcs; auto).
    rewrite <- indices_without_append by congruence. apply indices_without_disjoint; [|exact Dis].
    rewrite El, Ei in Ls. rewrite !app_length in *. cbn [length] in Ls. lia. }
  assert (Cm : common cs (l1 ++ d :: l2) = [d]).
  { unfold cs. destruct (z =? 1)%Z.
    - rewrite common_out_cons, common_out_cons, common_in_cons by assumption. reflexivity.
    - rewrite common_in_cons, common_out_cons, common_out_cons by assumption. reflexivity. }
  assert (W1 : without cs (l1 ++ d :: l2) = if (z =? 1)%Z then [s; p] else [p; s]).
  { unfold cs. destruct (z =? 1)%Z.
    - rewrite without_out_cons, without_out_cons, without_in_cons by assumption. reflexivity.
    - rewrite without_in_cons, without_out_cons, without_out_cons by assumption. reflexivity. }
  assert (I1 : indices_without cs [1; -1; -1]%Z (l1 ++ d :: l2) = if (z =? 1)%Z then [1; -1]%Z else [-1; -1]%Z).
  { unfold cs. destruct (z =? 1)%Z.
    - rewrite indices_without_out, indices_without_out, indices_without_in by assumption. reflexivity.
    - rewrite indices_without_in, indices_without_out, indices_without_out by assumption. reflexivity. }
  destruct (runs_mul w0 n m c name xs g gi HS w gx x cs [1; -1; -1]%Z (fun f => at3 Gam (map f cs)) (l1 ++ d :: l2) i (fun f => h (map f (l1 ++ d :: l2))) Fw T1 T2)
    as (y & w' & E & F' & G' & T).
  - discriminate.
  - rewrite Ei. destruct i1; discriminate.
  - split; [congruence|]. intros q y zq Hq Hzq. split; [|auto]. intros p' z1 Hp' Hz1.
    assert (Hy := nth_error_In _ _ Hp'). assert (Hy2 := nth_error_In _ _ Hq). apply Hcs in Hy. destruct Hy as [-> |[-> | ->]]; [contradiction|contradiction|].
    assert (Hq1 : nth_error (l1 ++ d :: l2) (length l1) = Some d) by (rewrite nth_error_app2, Nat.sub_diag by lia; reflexivity).
    assert (Eq : q = length l1) by (eapply NoDup_nth_error; [exact Nt|apply nth_error_Some; congruence|congruence]).
    rewrite Eq, Hl1, Hz in Hzq. injection Hzq as <-. clear - Hp' Hz1 Hz' Npd Nds.
    unfold cs in Hp'. destruct Hz' as [-> | ->]; cbn [Z.eqb Pos.eqb] in Hp'; destruct p' as [|[|[|p']]]; cbn in Hp', Hz1; try congruence; first [injection Hz1 as <-; reflexivity|destruct p'; discriminate].
  - exists y, w'. split; [exact E|]. split; [exact F'|]. split; [exact G'|]. rewrite Cm, W1, W2, I1, I2 in T.
    eexists _, _. split.
    + eapply tens_ext; [|exact T]. intros f Hf. cbv beta. cbn [length]. rewrite lsum_tuples_1.
      unfold term_value. rewrite (nth_error_nth _ _ ""%string Hs).
      assert (Em : forall k, map (assign [d] [k] f) (l1 ++ d :: l2) = replaced j k (map f syms)).
      { intros k. assert (Ea : forall l, ~ In d l -> map (assign [d] [k] f) l = map f l).
        { intros l Hd. apply map_ext_in. intros u Hu. unfold assign. cbn [index_of]. destruct (String.eqb_spec u d) as [->|]; [contradiction|reflexivity]. }
        rewrite map_app. cbn [map]. rewrite !Ea by (intros H; apply Nd12, in_app_iff; auto).
        assert (Ed : assign [d] [k] f d = k) by (unfold assign; cbn [index_of]; rewrite String.eqb_refl; reflexivity). rewrite Ed.
        unfold replaced. rewrite El, map_app. cbn [map]. assert (Hl : length (map f l1) = j) by (rewrite map_length; exact Hl1).
        rewrite firstn_app, firstn_all2, Hl, Nat.sub_diag by lia. cbn [firstn]. rewrite app_nil_r. f_equal. f_equal.
        rewrite skipn_app, skipn_all2 by lia. rewrite Hl. replace (S j - j) with 1 by lia. reflexivity. }
      assert (Ec : forall k, assign [d] [k] f d = k /\ assign [d] [k] f s = f s /\ assign [d] [k] f p = f p).
      { intros k. unfold assign; cbn [index_of]. rewrite String.eqb_refl. destruct (String.eqb_spec s d); [congruence|]. destruct (String.eqb_spec p d); [congruence|]. auto. }
      unfold cs. destruct Hz' as [-> | ->]; cbn [Z.eqb Pos.eqb]; apply nsum_ext; intros k Hk; rewrite Em; destruct (Ec k) as (E1 & E2 & E3); cbn [map];
        rewrite E1, E2, E3; unfold at3; cbn [nth]; reflexivity.
    + assert (L12 : length l1 = length i1) by congruence.
      assert (L22 : length l2 = length i2) by (rewrite El, Ei in Ls; rewrite !app_length in Ls; cbn [length] in Ls; lia).
      rewrite El, Ei. split; [|split].
      * cbn [length]. rewrite !app_length. cbn [length]. lia.
      * destruct (z =? 1)%Z; cbn [app length]; rewrite !app_length; lia.
      * cbn [combine]. rewrite combine_append by exact L12. cbn [combine].
        destruct Hz' as [-> | ->]; cbn [Z.eqb Pos.eqb app combine]; rewrite combine_append by exact L12.
        -- eapply Permutation_trans; [apply perm_skip, Permutation_sym, Permutation_middle|]. apply perm_swap.
        -- apply perm_skip, Permutation_sym, Permutation_middle.
Qed.

(** All terms with one kind of index. *)
Lemma terms_run w z l : form w -> value w chr [1; -1; -1]%Z (at3 Gam) -> value w t i h ->
  (forall j s z', In (j, (s, z')) l -> nth_error syms j = Some s /\ nth_error i j = Some z) ->
  runs w (mmap (fun jsz : nat * (string * Z) =>
          let '(j, (s, _)) := jsz in
          let! gx := calc_call chr (if (z =? 1)%Z then [s; p; d] else [d; p; s]) in
          let! x := calc_call t (map (fun ks => if fst ks =? j then d else snd ks) (combine (seq 0 (length syms)) syms)) in
          matmul0 gx x) l)
    (fun ys w' => Forall2 (fun jsz y => exists s' i', tens w' y s' i' (term_value (z =? 1)%Z (fst jsz)) /\ same_labels (p :: syms) (-1 :: i)%Z s' i') l ys).
Proof.
  revert w. induction l as [|[j [s z']] l IH]; intros w Fw Vc Vt Hl; cbn [mmap].
  - apply runs_ret; [exact Fw|constructor].
  - destruct (Hl j s z' (or_introl eq_refl)) as [H1 H2].
    eapply runs_bind; [apply (term_run w z j s Fw Vc Vt H1 H2)|]. intros y w1 F1 G1 Hy.
    eapply runs_bind; [apply (IH w1 F1)|].
    + eapply value_grow; eauto.
    + eapply value_grow; eauto.
    + intros j' s'' z'' Hin. eapply Hl. right; exact Hin.
    + intros ys w2 F2 G2 Hys. apply runs_ret; [exact F2|]. constructor; [|exact Hys]. destruct Hy as (s' & i' & T & Lb). exists s', i'. split; [|exact Lb].
      eapply tens_grow; eauto.
Qed.

(** The sum of terms. *)
Lemma fold_run (V : nat * (string * Z) -> (string -> nat) -> K) S I l ys w x s1 i1 F1 : length S = length I -> form w -> tens w x s1 i1 F1 -> same_labels S I s1 i1 ->
  Forall2 (fun jsz y => exists s' i', tens w y s' i' (V jsz) /\ same_labels S I s' i') l ys ->
  runs w (mfold (fun x y => calc_add x (OCalc y)) ys x) (fun r w' => tens w' r s1 i1 (fun f => kadd (F1 f) (lsum l (fun e => V e f)))).
Proof.
  intros HL Fw T1 Lb H. revert w x F1 Fw T1 H. revert ys. induction l as [|e l IH]; intros ys w x F1 Fw T1 H; inversion H as [|? y ? ys' Hy Hys]; subst; cbn [mfold].
  - apply runs_ret; [exact Fw|]. eapply tens_ext; [|exact T1]. intros f _. cbn [lsum]. ring.
  - destruct Hy as (s' & i' & Ty & Ly). destruct (labels_same _ _ _ _ (labels_trans _ _ _ _ _ _ (labels_sym _ _ _ _ Lb) Ly)) as [Pm Si].
    eapply runs_bind; [apply (runs_add w0 n m c name xs g gi HS w x y s1 i1 F1 s' i' _ Fw T1 Ty Pm Si)|]. intros r w1 F2 G1 Tr.
    destruct (IH ys' w1 r _ F2 Tr) as (r' & w' & E & F' & G' & T').
    + eapply F2_impl; [|exact Hys]. intros e' y' (s'' & i'' & H1 & H2). exists s'', i''. split; [eapply tens_grow; eauto|exact H2].
    + exists r', w'. split; [exact E|]. split; [exact F'|]. split; [exact G'|]. eapply tens_ext; [|exact T']. intros f _. cbn [lsum]. ring.
Qed.

Definition summed (w : world) (S : list string) (I : list Z) (u : operand) (V : (string -> nat) -> K) : Prop :=
  match u with
  | OZero => forall f, keq (V f) k0
  | OCalc y => exists s' i', tens w y s' i' V /\ same_labels S I s' i'
  | _ => False
  end.
Lemma sum_run (V : nat * (string * Z) -> (string -> nat) -> K) S I l ys w : length S = length I -> form w ->
  Forall2 (fun jsz y => exists s' i', tens w y s' i' (V jsz) /\ same_labels S I s' i') l ys ->
  runs w (calc_sum ys) (fun u w' => summed w' S I u (fun f => lsum l (fun e => V e f))).
Proof.
  intros HL Fw H. inversion H as [|e y l' ys' Hy Hys]; subst; cbn [calc_sum].
  - apply runs_ret; [exact Fw|]. intros f. reflexivity.
  - destruct Hy as (s' & i' & T & Lb).
    eapply runs_bind; [apply (fold_run V S I l' ys' w y s' i' _ HL Fw T Lb Hys)|]. intros r w1 F1 G1 Tr.
    apply runs_ret; [exact F1|]. exists s', i'. split; [exact Tr|exact Lb].
Qed.
Lemma add_sum w x S I F1 u V : form w -> tens w x S I F1 -> summed w S I u V ->
  runs w (calc_add x u) (fun z w' => tens w' z S I (fun f => kadd (F1 f) (V f))).
Proof.
  intros Fw T Hu. destruct u as [|y|k|]; [| |destruct Hu|destruct Hu].
  - apply runs_ret; [exact Fw|]. eapply tens_ext; [|exact T]. intros f _. rewrite (Hu f). ring.
  - destruct Hu as (s' & i' & Ty & Lb). destruct (labels_same _ _ _ _ Lb) as [Pm Si]. eapply runs_add; eauto.
Qed.
Lemma sub_sum w x S I F1 u V : form w -> tens w x S I F1 -> summed w S I u V -> S <> [] ->
  runs w (calc_sub x u) (fun z w' => tens w' z S I (fun f => ksub (F1 f) (V f))).
Proof.
  intros Fw T Hu NS. destruct u as [|y|k|]; [| |destruct Hu|destruct Hu].
  - apply runs_ret; [exact Fw|]. eapply tens_ext; [|exact T]. intros f _. rewrite (Hu f). ring.
  - destruct Hu as (s' & i' & Ty & Lb). destruct (labels_same _ _ _ _ Lb) as [Pm Si]. eapply runs_sub; eauto.
    destruct (value_of_tens _ _ _ _ _ Ty) as (_ & _ & _ & Ly & _). apply Permutation_length in Pm. intros Z. rewrite Z in Ly. rewrite Ly in Pm. destruct S; [exact (NS eq_refl)|discriminate Pm].
Qed.

(** The two sums together. *)
Lemma sum_parts {X} (P Q : X -> bool) (F G : X -> K) l : (forall e, In e l -> Q e = negb (P e)) ->
  keq (ksub (lsum (filter P l) F) (lsum (filter Q l) G)) (lsum l (fun e => if P e then F e else kopp (G e))).
Proof.
  induction l as [|e l IH]; intros H; cbn [filter lsum]; [ring|].
  rewrite (H e (or_introl eq_refl)). rewrite <- IH by (intros e' He'; apply H; right; exact He'). destruct (P e); cbn [negb lsum]; ring.
Qed.

Lemma sum_all f : (forall y, In y syms -> f y < n) ->
  keq (ksub (lsum (filter (fun jsz : nat * (string * Z) => (snd (snd jsz) =? 1)%Z) (combine (seq 0 (length syms)) (combine syms i))) (fun e => term_value true (fst e) f))
            (lsum (filter (fun jsz : nat * (string * Z) => (snd (snd jsz) =? -1)%Z) (combine (seq 0 (length syms)) (combine syms i))) (fun e => term_value false (fst e) f)))
      (nsum (length i) (fun j => if (nth j i 0 =? 1)%Z then nsum n (fun k => kmul (Gam (nth j (map f syms) 0) (f p) k) (h (replaced j k (map f syms))))
         else kopp (nsum n (fun k => kmul (Gam k (f p) (nth j (map f syms) 0)) (h (replaced j k (map f syms))))))).
Proof.
  intros Hf.
  assert (Hn : forall j s z, In (j, (s, z)) (combine (seq 0 (length syms)) (combine syms i)) -> nth_error syms j = Some s /\ nth_error i j = Some z).
  { intros j s z H. apply In_nth_error in H as (q & Hq). apply combine_nth_error in Hq as [H1 H2]. apply combine_nth_error in H2 as [H2 H3].
    assert (q < length syms) by (apply nth_error_Some; congruence).
    rewrite (nth_error_nth' _ 0) in H1 by (rewrite seq_length; lia). rewrite seq_nth in H1 by lia. injection H1 as <-. auto. }
  rewrite sum_parts.
  - unfold nsum at 1. rewrite <- Ls.
    assert (Hs : seq 0 (length syms) = map fst (combine (seq 0 (length syms)) (combine syms i))).
    { symmetry. apply combine_fst. rewrite seq_length, combine_length. lia. }
    rewrite Hs at 2. rewrite lsum_map. apply lsum_ext. intros [j [s z]] He. destruct (Hn j s z He) as [H1 H2]. cbn [fst snd].
    rewrite (nth_error_nth _ _ 0%Z H2). unfold term_value. rewrite (nth_error_nth _ _ ""%string H1).
    assert (Em : nth j (map f syms) 0 = f s) by (apply nth_error_nth; rewrite nth_error_map, H1; reflexivity). rewrite Em. reflexivity.
  - intros [j [s z]] He. cbn [snd]. destruct (Hn j s z He) as [_ H2]. apply nth_error_In in H2. apply (proj1 (Forall_forall _ _) Vi) in H2.
    destruct H2 as [-> | ->]; reflexivity.
Qed.
End Terms.
