(** The covariant derivative: the statements for formulas as they are written. *)
From Coq Require Import Ascii.
From Verif Require Import Alg Alg_P Arr Arr_P Spec UtilsM Utils_P Arr2_P Act_P RL_P TensorM WorldM SpecWorld World_P Registry_P CalcM SpecCalc Keep_P Calc_P Calc2_P Calc3_P Calc4_P Trace_P Run_P CurvM SpecCurv SpecCov Form_P Form2_P CurvRun_P CurvRun2_P Curv_P Cov_P Cov2_P Cov3_P CovId_P.
Local Open Scope nat_scope.

(** *** Few symbols leave letters *)
Lemma free_length letters l : NoDup letters -> length letters <= length (filter (fun s => negb (smem s l)) letters) + length l.
Proof.
  intros Nl. induction l as [|x l IH].
  - cbn. rewrite Nat.add_0_r. apply Nat.eq_le_incl. clear. induction letters as [|y r IH]; [reflexivity|]. cbn. congruence.
  - cbn [length]. set (u := filter (fun s => negb (smem s l)) letters) in *.
    assert (Nu : NoDup u) by (apply NoDup_filter, Nl).
    assert (E : filter (fun s => negb (smem s (x :: l))) letters = filter (fun s => negb (String.eqb s x)) u).
    { unfold u. clear. induction letters as [|s r IH]; [reflexivity|]. cbn [filter]. rewrite IH.
      change (smem s (x :: l)) with (String.eqb s x || smem s l). destruct (smem s l); cbn [orb negb filter]; [rewrite orb_true_r|rewrite orb_false_r]; [reflexivity|]. destruct (String.eqb s x); reflexivity. }
    rewrite E. assert (H : forall r, NoDup r -> length r <= S (length (filter (fun s => negb (String.eqb s x)) r))).
    { clear. intros r N. induction N as [|s r N1 N2 IH]; [cbn; lia|]. cbn [filter length]. destruct (String.eqb_spec s x) as [->|Ns]; cbn [negb length]; [|lia].
      assert (Ef : filter (fun s => negb (String.eqb s x)) r = r).
      { clear - N1. induction r as [|y r IH]; [reflexivity|]. cbn [filter]. destruct (String.eqb_spec y x) as [->|]; [exfalso; apply N1; left; reflexivity|]. cbn [negb]. f_equal. apply IH. intros H. apply N1. right; exact H. }
      rewrite Ef. lia. }
    specialize (H _ Nu). lia.
Qed.
Lemma enough_letters letters l : NoDup letters -> length l + 2 <= length letters -> free_letters letters l.
Proof.
  intros Nl Hl. split; [exact Nl|]. assert (H := free_length letters l Nl).
  assert (Nu : NoDup (filter (fun s => negb (smem s l)) letters)) by (apply NoDup_filter, Nl).
  assert (Hin : forall s, In s (filter (fun s => negb (smem s l)) letters) -> In s letters /\ ~ In s l) by (intros s; rewrite filter_In, negb_true_iff, smem_out; tauto).
  destruct (filter _ letters) as [|x [|y r]]; cbn in H; try lia. exists x, y. inversion Nu as [|? ? N1 _]; subst.
  destruct (Hin x (or_introl eq_refl)) as [L1 H1]. destruct (Hin y (or_intror (or_introl eq_refl))) as [L2 H2].
  repeat split; try assumption. intros ->. apply N1. left; reflexivity.
Qed.
Lemma letters_free l : length l <= 24 -> two_letters_free l.
Proof.
  intros Hl. destruct (enough_letters all_symbols l) as (_ & x & y & Lx & Ly & H); [apply distinctb_spec; reflexivity|cbn; lia|].
  exists x, y. rewrite <- !letters_all. tauto.
Qed.

Section Cov.
Context {A : AlgOps} {L : AlgLaws A} {D : DiffLaws A}.
Add Ring Kring : kring (setoid keq_equiv kring_ext).
Variables (n : nat) (m c : oid) (name : string) (xs : list string) (g gi : nat -> nat -> K).
Notation session w := (metric_session w n m c name xs g gi).
Notation known w := (known_results n xs g gi w m c name).
Notation known_all := (known_all n m c name xs g gi).
Notation value w := (tensor_value w n m c).
Notation Gam := (Gam n xs g gi).
Notation yields := (yields n xs g gi).

Lemma yields_ext p names s i f f' w : (forall idx, in_range n (length i) idx -> keq (f idx) (f' idx)) -> yields p m c name names s i f w -> yields p m c name names s i f' w.
Proof.
  intros H (z & w' & a & E & R & (Ca & Ra & Va) & O). exists z, w', a. split; [exact E|]. split; [exact R|]. split; [|exact O].
  split; [exact Ca|]. split; [exact Ra|]. intros idx Hi. rewrite (Va idx Hi). apply H, Hi.
Qed.
Lemma yields_same p q names s i f w : p w = q w -> yields q m c name names s i f w -> yields p m c name names s i f w.
Proof. intros H (z & w' & a & E & R). exists z, w', a. rewrite H. split; [exact E|exact R]. Qed.

Lemma system_cls w : session w -> cls_of w c = Some CCoordinates.
Proof. intros (_ & _ & _ & _ & (H & _) & _). exact H. Qed.
Lemma call_value w t i h syms : session w -> value w t i h -> valid_cfg i -> NoDup syms -> length syms = length i ->
  calc_call t syms w = (Ok (mkCalc (Some t) syms RTensor), w).
Proof.
  intros HS (k & o & a & Hk & Nk & Ho & Mo & Ei & Ro & Sd & (Ca & Ra & Va)) V Ns Ls.
  unfold calc_call. eapply calc_init_plain; [exact Hk|exact Nk|exact Ho| | |rewrite Ra; congruence|exact Ns].
  - rewrite (get_default w t o c Ho (proj1 Sd)). eapply stored_default_get; eauto; [apply system_cls, HS|congruence|congruence].
  - congruence.
Qed.
Lemma left_formula ls w t i h syms a : session w -> value w t i h -> valid_cfg i -> NoDup syms -> length syms = length i ->
  (let! d := CovariantD [a] in let! x := calc_call t syms in matmul_with ls d x) w = matmul_with ls (mkCalc None [a] RCovariant) (mkCalc (Some t) syms RTensor) w.
Proof. intros. rewrite (bind_ok _ _ (mkCalc None [a] RCovariant) w w) by reflexivity. rewrite (bind_ok _ _ _ _ _ (call_value w t i h syms ltac:(assumption) ltac:(assumption) ltac:(assumption) ltac:(assumption) ltac:(assumption))). reflexivity. Qed.
Lemma right_formula ls w t i h syms a : session w -> value w t i h -> valid_cfg i -> NoDup syms -> length syms = length i ->
  (let! x := calc_call t syms in let! d := CovariantD [a] in matmul_with ls x d) w = matmul_with ls (mkCalc (Some t) syms RTensor) (mkCalc None [a] RCovariant) w.
Proof. intros. rewrite (bind_ok _ _ _ _ _ (call_value w t i h syms ltac:(assumption) ltac:(assumption) ltac:(assumption) ltac:(assumption) ltac:(assumption))). reflexivity. Qed.

Lemma gradient_value_with letters w t i h syms a :
  session w -> known w -> value w t i h -> ~ named w "TEMP" t -> valid_cfg i -> NoDup (a :: syms) -> length syms = length i -> free_letters letters (a :: syms) ->
  yields (let! d := CovariantD [a] in let! x := calc_call t syms in matmul_with (Ok letters) d x) m c name [(name ++ " Christoffel")%string]
    (a :: syms) (-1 :: i)%Z (fun idx => covariant_of n (cx xs) Gam i h (nth 0 idx 0) (tl idx)) w.
Proof.
  intros HS Ka V Nt Vi Ns Ls H2. inversion Ns as [|? ? Na Ns']; subst.
  eapply yields_same; [eapply left_formula; eassumption|]. eapply gradient_with; eassumption.
Qed.
Lemma divergence_value_with letters w t i h l1 l2 a :
  session w -> known w -> value w t i h -> ~ named w "TEMP" t -> valid_cfg i -> NoDup (l1 ++ a :: l2) -> length (l1 ++ a :: l2) = length i -> free_letters letters (l1 ++ a :: l2) ->
  yields (let! d := CovariantD [a] in let! x := calc_call t (l1 ++ a :: l2) in matmul_with (Ok letters) d x) m c name [(name ++ " Christoffel")%string]
    (l1 ++ l2) (firstn (length l1) i ++ skipn (S (length l1)) i) (divergence_of n (cx xs) Gam gi i h (length l1)) w.
Proof.
  intros HS Ka V Nt Vi Ns Ls H2. eapply yields_same; [eapply left_formula; eassumption|]. eapply divergence_with; eassumption.
Qed.
Lemma right_value_with letters w t i h syms a :
  session w -> known w -> value w t i h -> ~ named w "TEMP" t -> valid_cfg i -> NoDup (a :: syms) -> length syms = length i -> free_letters letters (a :: syms) ->
  yields (let! x := calc_call t syms in let! d := CovariantD [a] in matmul_with (Ok letters) x d) m c name [(name ++ " Christoffel")%string]
    (syms ++ [a]) (-1 :: i)%Z (fun idx => covariant_of n (cx xs) Gam i h (nth 0 idx 0) (tl idx)) w.
Proof.
  intros HS Ka V Nt Vi Ns Ls H2. inversion Ns as [|? ? Na Ns']; subst.
  eapply yields_same; [eapply right_formula; eassumption|]. eapply right_with; eassumption.
Qed.

Lemma gradient_value w t i h syms a :
  session w -> known w -> value w t i h -> ~ named w "TEMP" t -> valid_cfg i -> NoDup (a :: syms) -> length syms = length i -> two_letters_free (a :: syms) ->
  yields (let! d := CovariantD [a] in let! x := calc_call t syms in matmul d x) m c name [(name ++ " Christoffel")%string]
    (a :: syms) (-1 :: i)%Z (fun idx => covariant_of n (cx xs) Gam i h (nth 0 idx 0) (tl idx)) w.
Proof. intros HS Ka V Nt Vi Ns Ls H2. apply (gradient_value_with all_symbols); try assumption. apply default_letters, H2. Qed.
Lemma divergence_value w t i h l1 l2 a :
  session w -> known w -> value w t i h -> ~ named w "TEMP" t -> valid_cfg i -> NoDup (l1 ++ a :: l2) -> length (l1 ++ a :: l2) = length i -> two_letters_free (l1 ++ a :: l2) ->
  yields (let! d := CovariantD [a] in let! x := calc_call t (l1 ++ a :: l2) in matmul d x) m c name [(name ++ " Christoffel")%string]
    (l1 ++ l2) (firstn (length l1) i ++ skipn (S (length l1)) i) (divergence_of n (cx xs) Gam gi i h (length l1)) w.
Proof. intros HS Ka V Nt Vi Ns Ls H2. apply (divergence_value_with all_symbols); try assumption. apply default_letters, H2. Qed.
Lemma right_value w t i h syms a :
  session w -> known w -> value w t i h -> ~ named w "TEMP" t -> valid_cfg i -> NoDup (a :: syms) -> length syms = length i -> two_letters_free (a :: syms) ->
  yields (let! x := calc_call t syms in let! d := CovariantD [a] in matmul x d) m c name [(name ++ " Christoffel")%string]
    (syms ++ [a]) (-1 :: i)%Z (fun idx => covariant_of n (cx xs) Gam i h (nth 0 idx 0) (tl idx)) w.
Proof. intros HS Ka V Nt Vi Ns Ls H2. apply (right_value_with all_symbols); try assumption. apply default_letters, H2. Qed.

(** *** The metric *)
Lemma session_sym w : session w -> symmetric_fun n g.
Proof. intros (_ & _ & _ & _ & _ & _ & _ & _ & _ & _ & _ & H & _). exact H. Qed.
Lemma session_inv w : session w -> inverse_fun n g gi.
Proof. intros (_ & _ & _ & _ & _ & _ & _ & _ & _ & _ & _ & _ & H & _). exact H. Qed.
Lemma session_not_temp w : session w -> ~ named w "TEMP" m.
Proof. intros (_ & _ & _ & _ & _ & _ & _ & _ & _ & _ & H & _). exact H. Qed.

Lemma metric_constant w k i j : session w -> known w -> NoDup [k; i; j] ->
  yields (let! d := CovariantD [k] in let! x := calc_call m [i; j] in matmul d x) m c name [(name ++ " Christoffel")%string]
    [k; i; j] [-1; -1; -1]%Z (fun _ => k0) w.
Proof.
  intros HS Ka Nd. eapply yields_ext; [|eapply (gradient_value w m [-1; -1]%Z (at2 g) [i; j] k); try assumption].
  - intros idx [Hl Hr]. destruct idx as [|p [|q [|r [|]]]]; try discriminate Hl. inversion Hr as [|? ? H1 Hr1]; subst. inversion Hr1 as [|? ? H2 Hr2]; subst. inversion Hr2 as [|? ? H3 _]; subst.
    cbn [nth tl]. unfold SpecCurv.Gam. rewrite cov2. apply metric_compatible; [eapply session_sym; eauto|eapply session_inv; eauto|assumption|assumption|assumption].
  - exact (metric_value n m c name xs g gi w HS).
  - eapply session_not_temp; eauto.
  - apply valid_cfgb_spec. reflexivity.
  - reflexivity.
  - apply letters_free. cbn. lia.
Qed.

(** *** The second Bianchi identity *)
Lemma bianchi_values (Hs : symmetric_fun n g) a b p q r : p < n -> q < n -> r < n ->
  let cov p q r := covariant_of n (cx xs) Gam [1; -1; -1; -1]%Z (at4 (Rie n xs g gi)) r [a; b; p; q] in
  keq (kadd (kadd (cov p q r) (cov q r p)) (cov r p q)) k0.
Proof.
  intros Hp Hq Hr cov. unfold cov. unfold Rie, SpecCurv.Gam.
  rewrite !cov_riemann. apply second_bianchi; assumption.
Qed.

(** *** The Einstein tensor *)
Lemma einstein_divergence w a b : session w -> known w -> a <> b ->
  yields (let! t := calc_einstein m in let! d := CovariantD [a] in let! x := calc_call t [a; b] in matmul d x) m c name
    [(name ++ " Christoffel"); (name ++ " Riemann"); (name ++ " Ricci Tensor"); (name ++ " Ricci Scalar"); (name ++ " Einstein")]%string
    [b] [-1]%Z (fun _ => k0) w.
Proof.
  intros HS Ka Nab. destruct (einstein_done n m c name xs g gi w HS (proj2 (known_all_spec n m c name xs g gi w) Ka)) as (t & w1 & E1 & G1 & Ad & Ka1 & It & Nt & V).
  assert (HS1 := session_addsn n m c name xs g gi _ _ _ HS G1 Ad).
  assert (Y : yields (let! d := CovariantD [a] in let! x := calc_call t [a; b] in matmul d x) m c name [(name ++ " Christoffel")%string] [b] [-1]%Z (fun _ => k0) w1).
  { eapply yields_ext; [|eapply (divergence_value w1 t [-1; -1]%Z _ [] [b] a HS1)].
    - cbn [length firstn skipn app]. intros idx [Hl Hr]. destruct idx as [|e [|]]; try discriminate Hl. inversion Hr as [|? ? He _]; subst.
      unfold divergence_of, inserted. cbn [length nth firstn skipn app Z.eqb Pos.eqb].
      rewrite (nsum_ext n _ (fun k => nsum n (fun l => kmul (gi k l) (covariant2 n (cx xs) Gam (Ein n xs g gi) k l e)))).
      + apply (divergence_einstein n (cx xs) g gi (session_sym _ HS) (session_inv _ HS) e He).
      + intros k Hk. apply nsum_ext. intros l Hl'. apply kmul_proper; [reflexivity|]. apply cov2.
    - apply known_all_spec, Ka1.
    - exact V.
    - destruct Nt as (o & Ho & En). intros (o' & Ho' & En'). rewrite Ho in Ho'. injection Ho' as <-. rewrite En in En'. revert En'. apply suffix_not_temp. cbn. lia.
    - apply valid_cfgb_spec. reflexivity.
    - cbn [app]. repeat constructor; cbn; intuition congruence.
    - reflexivity.
    - apply letters_free. cbn. lia. }
  destruct Y as (z & w2 & b0 & E2 & R2 & H2 & O2 & S2 & K2).
  exists z, w2, b0. split; [rewrite (bind_ok _ _ _ _ _ E1); exact E2|]. split; [exact R2|]. split; [exact H2|]. split; [|split; [exact S2|exact K2]].
  assert (O1 := addsn_only m c _ _ _ Ad). destruct O1 as [p1 p2], O2 as [q1 q2]. split.
  - intros j o Ho Nn. destruct (p1 j o Ho Nn) as (u1 & u2 & u3). destruct (q1 j o u1 Nn) as (v1 & v2 & v3). split; [exact v1|]. split; [congruence|]. auto.
  - intros j Hj. destruct (q2 j Hj) as [[Hj1 Ho]|(s & Hs & Hn)].
    + destruct (p2 j Hj1) as [[Hj0 Ho']|(s & Hs & Hn)]; [left; split; auto|]. right. exists s. split; [exact Hs|].
      destruct S2 as (_ & ((_ & R) & _) & _). specialize (R j Hj). destruct (obj_of w2 j) as [o2|] eqn:Eo; [|congruence].
      exists o2. split; [exact Eo|]. destruct Hn as (o1 & Ho1 & En). rewrite (Ho o2 eq_refl) in Ho1. congruence.
    + right. exists s. split; [|exact Hn]. cbn in Hs |- *. tauto.
Qed.
End Cov.
