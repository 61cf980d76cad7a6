(** The execution of formulas. *)
From Coq Require Import Permutation.
From Verif Require Import Alg Alg_P Arr Arr_P Spec UtilsM Utils_P Arr2_P Act_P RL_P TensorM WorldM SpecWorld World_P Registry_P CalcM SpecCalc Keep_P Calc_P Calc2_P Calc3_P Calc4_P Trace_P Run_P CurvM SpecCurv SpecForm Form_P Form2_P CurvRun_P Norm_P Scalar_P Along_P FormVal_P FormVal2_P.
Local Open Scope nat_scope.

Section Run.
Context {A : AlgOps} {L : AlgLaws A} {D : DiffLaws A}.
Add Ring Kring : kring (setoid keq_equiv kring_ext).
Variables (n : nat) (m c : oid) (name : string) (xs : list string) (g gi : nat -> nat -> K).
Notation session w := (metric_session w n m c name xs g gi).
Notation opd w t i h := (operand w n m c g gi t i h).
(** Objects made since the beginning, and tensors of the formula *)
Variables (N0 : nat) (Lv : oid -> Prop).
Definition mine (t : oid) : Prop := N0 <= t \/ Lv t.

Definition ext (w w' : world) : Prop :=
  length (heap w) <= length (heap w') /\
  (forall t i h, opd w t i h -> opd w' t i h) /\
  (forall j o, obj_of w j = Some o -> cls_of w' j = cls_of w j /\
     exists o', obj_of w' j = Some o' /\ (~ mine j \/ j = m -> o' = o) /\ same_attrs o o' /\ comps_le o o') /\
  exists l, insts w' = insts w ++ l /\ forall j, In j l -> named w' "TEMP" j.

Lemma ext_refl w : ext w w.
Proof.
  split; [lia|]. split; [auto|]. split.
  - intros j o H. split; [reflexivity|]. exists o. split; [exact H|]. split; [reflexivity|]. split; [apply same_attrs_refl|]. intros c' d i a H1 H2. eauto.
  - exists []. rewrite app_nil_r. split; [reflexivity|]. intros j [].
Qed.
Lemma ext_trans w1 w2 w3 : ext w1 w2 -> ext w2 w3 -> ext w1 w3.
Proof.
  intros (a1 & a2 & a3 & l & a4 & a5) (b1 & b2 & b3 & l' & b4 & b5). split; [lia|]. split; [auto|]. split.
  - intros j o Ho. destruct (a3 j o Ho) as (K1 & o' & Ho' & E1 & S1 & C1). destruct (b3 j o' Ho') as (K2 & o'' & Ho'' & E2 & S2 & C2).
    split; [congruence|]. exists o''. split; [exact Ho''|]. split; [intros Hj; rewrite (E2 Hj); auto|]. split; [eapply same_attrs_trans; eauto|].
    intros c' d i a H1 H2. destruct (C1 _ _ _ _ H1 H2) as (d' & H3 & H4). eauto.
  - exists (l ++ l'). split; [rewrite b4, a4, app_assoc; reflexivity|]. intros j Hj. apply in_app_iff in Hj as [Hj|Hj]; [|auto].
    destruct (a5 j Hj) as (o & Ho & En). destruct (b3 j o Ho) as (_ & o' & Ho' & _ & S & _). exists o'. split; [exact Ho'|]. destruct S as [-> _]. exact En.
Qed.
Lemma operand_same w w' t i h : cls_of w' t = cls_of w t -> obj_of w' t = obj_of w t -> opd w t i h -> opd w' t i h.
Proof.
  intros Hk Ho (V & S & Vi & Hm & He). unfold operand, tensor_value, stored_right in *. rewrite Hk, Ho. auto.
Qed.
Lemma ext_fresh w sy i r : session w -> ext w (fresh_world w CTensor (tobj "TEMP" sy i c m r)).
Proof.
  intros HS. split; [cbn [fresh_world heap]; rewrite app_length; lia|]. split; [|split].
  - intros t i' h Ho. assert (Hl : t < length (heap w)) by (destruct Ho as ((k & o & a & _ & _ & H & _) & _); eapply obj_of_lt, H).
    apply (operand_same w); [apply cls_of_fresh; lia| |exact Ho]. rewrite obj_of_fresh. destruct (Nat.eqb_spec t (length (heap w))); [lia|reflexivity].
  - intros j o Ho. assert (Hl := obj_of_lt _ _ _ Ho). split; [apply cls_of_fresh; lia|]. exists o. split; [apply obj_fresh_old, Ho|].
    split; [reflexivity|]. split; [apply same_attrs_refl|]. intros c' d i' a H1 H2. eauto.
  - exists [length (heap w)]. split; [reflexivity|]. intros j [<-|[]]. eexists. split; [apply obj_fresh_new|reflexivity].
Qed.
Lemma session_fresh w sy i r : session w -> session (fresh_world w CTensor (tobj "TEMP" sy i c m r)).
Proof.
  intros HS. eapply (session_adds w n m c name xs g gi HS); [|apply adds_fresh; [apply HS|apply tobj_refers]].
  apply good_fresh; try apply HS. split; [apply HS|split; apply HS].
Qed.

(** Reading an operand in any configuration *)
Lemma operand_obj w t i h : session w -> opd w t i h -> exists k o a, cls_of w t = Some k /\ k <> CCoordinates /\ obj_of w t = Some o /\
  o_metric o = Some m /\ o_indices o = i /\ o_rank o = length i /\ stored_default o c a /\ o_coords o = Some c /\ holds n (length i) a h /\
  is_expr o c = false /\ get_components t (Some c) (Some i) w = (Ok a, w).
Proof.
  intros HS ((k & o & a & Hk & Nk & Ho & Mo & Ei & Ro & Sd & Hh) & _ & Vi & _ & He). exists k, o, a.
  assert (Co : o_coords o = Some c) by apply Sd. do 9 (split; [assumption|]). split; [apply here_expr, He, Ho|].
  rewrite <- Ei. eapply stored_default_get; eauto; try congruence. apply HS.
Qed.
Lemma operand_get w t i h j : session w -> mine t -> opd w t i h -> valid_cfg j -> length j = length i ->
  exists b w2, get_components t (Some c) (Some j) w = (Ok b, w2) /\ holds n (length i) b (converted n g gi i j h) /\ session w2 /\ ext w w2.
Proof.
  intros HS Ht Ho Vj Lj. destruct Ho as (V & SR & Vi & NM & He).
  destruct (convert_get n m c name xs g gi w t i h j HS V SR Vj Lj NM) as (b & w2 & E & Hb & S2 & V2 & SR2 & Gr).
  exists b, w2. split; [exact E|]. split; [exact Hb|]. split; [exact S2|]. destruct Gr as (g1 & g2 & g3 & g4 & o & o' & H1 & H2 & Sa & Le).
  split; [lia|]. split; [|split].
  - intros t' i' h' Ho'. destruct (Nat.eq_dec t' t) as [->|N]; [|apply (operand_same w); auto].
    destruct (operand_obj w t i' h' HS Ho') as (k & o1 & a1 & Hk1 & Nk1 & Ho1 & Mo1 & Ei1 & Ro1 & Sd1 & Co1 & Hh1 & He1 & Eg1).
    destruct Ho' as (V' & SR' & Vi' & NM' & He'). assert (Ei : i' = i).
    { destruct V as (k2 & o2 & a2 & _ & _ & Ho2 & _ & Ei2 & _). congruence. }
    rewrite Ei in *. clear Ei i'. destruct (convert_get n m c name xs g gi w t i h' j HS V' SR' Vj Lj NM') as (b' & w2' & E' & Hb' & S2' & V2' & SR2' & Gr').
    assert (w2' = w2) by congruence. subst w2'. split; [exact V2'|]. split; [exact SR2'|]. split; [exact Vi|]. split; [rewrite g3; exact NM|].
    intros o3 Ho3. destruct i as [|z i0].
    + assert (j = []) as -> by (destruct j; [reflexivity|discriminate]). rewrite Eg1 in E. injection E as _ <-. apply He'. exact Ho3.
    + intros [Hr _]. destruct V2' as (k4 & o4 & a4 & _ & _ & Ho4 & _ & _ & Ro4 & _). rewrite Ho4 in Ho3. injection Ho3 as <-. cbn [length] in Ro4. congruence.
  - intros j' oj Hj. split; [apply g3|]. destruct (Nat.eq_dec j' t) as [->|N].
    + rewrite H1 in Hj. injection Hj as <-. exists o'. split; [exact H2|]. split; [|split; [exact Sa|exact Le]].
      intros [Hn|Et]; [contradiction|]. assert (Ew : w2 = w); [|rewrite Ew in H2; congruence].
      assert (HS' := HS). destruct HS' as (_ & _ & _ & _ & Hsys & _ & _ & _ & Hm & _ & _ & _ & _ & om & G & Hom & _ & _ & Im & Rm & (_ & _ & dm & Hd & Htab) & _).
      destruct V as (kv & ov & av & Hkv & Nkv & Hov & Mov & Eiv & Rov & _). rewrite Et, Hom in Hov. injection Hov as <-.
      destruct j as [|z0 [|z1 [|]]]; try (exfalso; rewrite <- Eiv, Im in Lj; discriminate Lj).
      destruct (Htab z0 z1 Vj) as (Gz & _). rewrite Et in E.
      assert (E' : get_components m (Some c) (Some [z0; z1]) w = (Ok (G z0 z1), w)); [|congruence].
      eapply get_stored; [exact Hm|discriminate|exact Hom|apply Hsys|exact Hd|exact Gz|exact Vj|congruence].
    + exists oj. split; [rewrite g4; assumption|]. split; [reflexivity|]. split; [apply same_attrs_refl|]. intros c' d i' a H3 H4. eauto.
  - exists []. rewrite app_nil_r. split; [exact g1|]. intros q [].
Qed.

(** *** Operands with symbols *)
Definition tens (w : world) (x : calc) (s : list string) (i : list Z) (F : (string -> nat) -> K) : Prop :=
  exists t h, x = mkCalc (Some t) s RTensor /\ mine t /\ opd w t i h /\ NoDup s /\ length s = length i /\
    forall f, (forall y, In y s -> f y < n) -> keq (h (map f s)) (F f).
Definition steps {X} (w : world) (p : M X) (Q : X -> world -> Prop) : Prop :=
  exists x w', p w = (Ok x, w') /\ session w' /\ ext w w' /\ Q x w'.
Lemma steps_bind {X Y} w (p : M X) (k : X -> M Y) Q R :
  steps w p Q -> (forall x w1, session w1 -> ext w w1 -> Q x w1 -> steps w1 (k x) R) -> steps w (mbind p k) R.
Proof.
  intros (x & w1 & E & F & G & HQ) H. destruct (H x w1 F G HQ) as (y & w2 & E2 & F2 & G2 & HR).
  exists y, w2. split; [rewrite (bind_ok _ _ _ _ _ E); exact E2|]. split; [exact F2|]. split; [eapply ext_trans; eauto|exact HR].
Qed.
Lemma steps_weaken {X} w (p : M X) (Q R : X -> world -> Prop) : (forall x w', session w' -> ext w w' -> Q x w' -> R x w') -> steps w p Q -> steps w p R.
Proof. intros H (x & w' & E & S & G & HQ). exists x, w'. auto. Qed.
Lemma tens_ext w x s i F F' : (forall f, (forall y, In y s -> f y < n) -> keq (F f) (F' f)) -> tens w x s i F -> tens w x s i F'.
Proof.
  intros H (t & h & E & Mt & O & Nd & Ls & V). exists t, h. do 5 (split; [assumption|]). intros f Hf. rewrite (V f Hf). apply H, Hf.
Qed.
Lemma tens_mono w w' x s i F : ext w w' -> tens w x s i F -> tens w' x s i F.
Proof. intros (_ & H & _) (t & h & E & Mt & O & R). exists t, h. auto. Qed.
Lemma tens_labelled w x s i F : session w -> tens w x s i F -> exists t k o a h, labelled w x t o /\ mine t /\ opd w t i h /\ cls_of w t = Some k /\ k <> CCoordinates /\
  o_metric o = Some m /\ o_indices o = i /\ o_coords o = Some c /\ stored_default o c a /\ cubic n a /\ rank a = o_rank o /\ o_rank o = length i /\ c_syms x = s /\
  is_expr o c = false /\ get_components t (Some c) (Some (o_indices o)) w = (Ok a, w) /\
  (forall f, (forall y, In y s -> f y < n) -> keq (aget a (map f s)) (F f)) /\ (forall f, (forall y, In y s -> f y < n) -> keq (h (map f s)) (F f)).
Proof.
  intros HS (t & h & -> & Mt & O & Nd & Ls & V). destruct (operand_obj w t i h HS O) as (k & o & a & Hk & Nk & Ho & Mo & Ei & Ro & Sd & Co & (Ca & Ra & Va) & He & Eg).
  exists t, k, o, a, h. split.
  { split; [reflexivity|]. split; [reflexivity|]. split; [exact Ho|]. split; [exact Nd|]. cbn [c_syms]. rewrite Ei. split; [exact Ls|]. split; [exact Ro|]. apply O. }
  do 9 (split; [assumption|]). split; [congruence|]. split; [exact Ro|]. split; [reflexivity|]. split; [exact He|]. split; [rewrite Ei; exact Eg|]. split; [|exact V].
  intros f Hf. rewrite Va; [apply V, Hf|]. split; [rewrite map_length; exact Ls|]. apply Forall_forall. intros q Hq. apply in_map_iff in Hq as (y & <- & Hy). apply Hf, Hy.
Qed.
Definition indexed (s : list string) (h : (string -> nat) -> K) (idx : list nat) : K := h (assign s idx (fun _ => 0)).
Lemma in_range_map f s : (forall y : string, In y s -> f y < n) -> in_range n (length s) (map f s).
Proof. intros Hf. split; [apply map_length|]. apply Forall_forall. intros q Hq. apply in_map_iff in Hq as (y & <- & Hy). apply Hf, Hy. Qed.

Lemma tens_new w s i a F sy : session w -> N0 <= length (heap w) -> NoDup s -> length s = length i -> valid_cfg i -> cubic n a -> rank a = length i ->
  (forall f, (forall y, In y s -> f y < n) -> keq (aget a (map f s)) (F f)) ->
  tens (fresh_world w CTensor (tobj "TEMP" sy i c m a)) (new_calc w s) s i F.
Proof.
  intros HS HN Ns Ls V Ca Ra Va. exists (length (heap w)), (aget a). split; [reflexivity|]. split; [left; exact HN|]. split; [|auto].
  split; [|split; [|split; [exact V|split]]].
  - exists CTensor, (tobj "TEMP" sy i c m a), a. split; [apply cls_fresh_new|]. split; [discriminate|]. split; [apply obj_fresh_new|].
    split; [reflexivity|]. split; [reflexivity|]. split; [reflexivity|]. split; [apply tobj_stored|]. split; [exact Ca|]. split; [exact Ra|]. intros idx _. reflexivity.
  - intros o d j b Ho Hd Hb. rewrite obj_fresh_new in Ho. injection Ho as <-. cbn in Hd. rewrite Nat.eqb_refl in Hd. injection Hd as <-.
    cbn in Hb. destruct (list_eq_dec Z.eq_dec j i) as [->|Nj].
    + rewrite cfg_eqb_refl in Hb. injection Hb as <-. split; [exact V|]. split; [reflexivity|]. split; [exact Ca|]. split; [exact Ra|].
      intros idx Hi. symmetry. apply converted_self. exact Hi.
    + destruct (cfg_eqb j i) eqn:E; [|discriminate]. apply cfg_eqb_spec in E. contradiction.
  - rewrite cls_fresh_new. discriminate.
  - intros o Ho. rewrite obj_fresh_new in Ho. injection Ho as <-. intros [_ H]. apply (H [(i, a)] []). reflexivity.
Qed.

(** *** Operators *)
Definition base_ok (w : world) : Prop := session w /\ N0 <= length (heap w).
Lemma base_ext w w' : base_ok w -> session w' -> ext w w' -> base_ok w'.
Proof. intros [_ H] S (E & _). split; [exact S|lia]. Qed.

Lemma steps_new w (p : M calc) w2 s i a F : base_ok w2 -> session w -> ext w w2 -> p w = (Ok (new_calc w2 s), fresh_world w2 CTensor (tobj "TEMP" "T" i c m a)) ->
  NoDup s -> length s = length i -> valid_cfg i -> cubic n a -> rank a = length i ->
  (forall f, (forall y, In y s -> f y < n) -> keq (aget a (map f s)) (F f)) ->
  steps w p (fun z w' => tens w' z s i F).
Proof.
  intros [S2 N2] HS X E Ns Ls V Ca Ra Va. eexists _, _. split; [exact E|]. split; [apply session_fresh, S2|].
  split; [eapply ext_trans; [exact X|apply ext_fresh, S2]|]. apply tens_new; assumption.
Qed.
Lemma steps_neg w x s i F : base_ok w -> tens w x s i F -> steps w (calc_neg x) (fun z w' => tens w' z s i (fun f => kopp (F f))).
Proof.
  intros B T. destruct (tens_labelled _ _ _ _ _ (proj1 B) T) as (t1 & k1 & o1 & a1 & h1 & X1 & Mt & O1 & K1 & N1 & M1 & E1 & C1 & S1 & Ca1 & R1 & Rl1 & Y1 & He & G1 & V1 & H1).
  assert (HS := proj1 B). assert (Hsys : coordinate_system w c n) by apply HS.
  assert (E := neg_run w x t1 o1 m c n a1 (proj1 HS) X1 S1 M1 Hsys Ca1 R1 He). destruct X1 as (_ & _ & _ & Nx & Lx & _ & Vx). rewrite Y1, E1 in *.
  destruct (amap_values n kopp a1 Ca1) as (P1 & P2 & P3). eapply (steps_new w _ w s i (amap kopp a1)); try eassumption; try congruence; [apply ext_refl|].
  intros f Hf. rewrite P3, (V1 f Hf); [reflexivity|]. destruct Ca1 as [_ ->]. rewrite R1, Rl1, <- Lx. apply inb_assign, Hf.
Qed.
Lemma steps_scale w x k s i F : base_ok w -> tens w x s i F -> steps w (calc_mul x (OScalar k)) (fun z w' => tens w' z s i (fun f => kmul k (F f))).
Proof.
  intros B T. destruct (tens_labelled _ _ _ _ _ (proj1 B) T) as (t1 & k1 & o1 & a1 & h1 & X1 & Mt & O1 & K1 & N1 & M1 & E1 & C1 & S1 & Ca1 & R1 & Rl1 & Y1 & He & G1 & V1 & H1).
  assert (HS := proj1 B). assert (Hsys : coordinate_system w c n) by apply HS.
  assert (E := scale_run w x k t1 o1 m c n a1 (proj1 HS) X1 S1 M1 Hsys Ca1 R1). destruct X1 as (_ & _ & _ & Nx & Lx & _ & Vx). rewrite Y1, E1 in *.
  destruct (amap_values n (kmul k) a1 Ca1) as (P1 & P2 & P3). eapply (steps_new w _ w s i (amap (kmul k) a1)); try eassumption; try congruence; [apply ext_refl|].
  intros f Hf. rewrite P3, (V1 f Hf); [reflexivity|]. destruct Ca1 as [_ ->]. rewrite R1, Rl1, <- Lx. apply inb_assign, Hf.
Qed.
Lemma steps_div w x k s i F : base_ok w -> tens w x s i F -> steps w (calc_div x k) (fun z w' => tens w' z s i (fun f => kmul k (F f))).
Proof.
  intros B T. destruct (steps_scale w x k s i F B T) as (z & w' & E & H). exists z, w'. split; [|exact H]. rewrite <- E.
  destruct (tens_labelled _ _ _ _ _ (proj1 B) T) as (t1 & k1 & o1 & a1 & h1 & X1 & Mt & O1 & K1 & N1 & M1 & E1 & C1 & S1 & Ca1 & R1 & Rl1 & Y1 & He & G1 & V1 & H1).
  assert (HS := proj1 B). assert (Hsys : coordinate_system w c n) by apply HS.
  apply (div_run w x t1 o1 c a1 X1 S1 k He).
Qed.
Lemma steps_gradient w a y s i F : base_ok w -> tens w y s i F -> ~ In a s ->
  steps w (matmul0 (mkCalc None [a] RPartial) y) (fun z w' => tens w' z (a :: s) (-1 :: i)%Z (fun f => kdiff (cx xs (f a)) (F f))).
Proof.
  intros B T Na. destruct (tens_labelled _ _ _ _ _ (proj1 B) T) as (t1 & k1 & o1 & a1 & h1 & X1 & Mt & O1 & K1 & N1 & M1 & E1 & C1 & S1 & Ca1 & R1 & Rl1 & Y1 & He & G1 & V1 & H1).
  assert (HS := proj1 B). assert (Hsys : coordinate_system w c n) by apply HS.
  assert (Hx : exists oc, obj_of w c = Some oc /\ o_syms oc = xs /\ length xs = n) by apply HS. destruct Hx as (oc & Hoc & Esy & Lsy).
  destruct (gradient_run w a y t1 o1 m c n oc a1 w) as (r & E & Cr & Rr & Vr); try assumption; try apply HS; try congruence.
  destruct X1 as (_ & _ & _ & Nx & Lx & _ & Vx). rewrite Y1, E1 in *. eapply (steps_new w _ w (a :: s) (-1 :: i)%Z r); try eassumption.
  - apply ext_refl.
  - constructor; assumption.
  - cbn. congruence.
  - constructor; [auto|exact Vx].
  - intros f Hf. rewrite (Vr f Hf), Esy. unfold cx. apply kdiff_proper. apply V1. intros z Hz. apply Hf. right; exact Hz.
Qed.

(** The configuration for the order of the symbols of the other operand *)
Lemma same_indices_ex s1 i1 s2 : NoDup s1 -> NoDup s2 -> length i1 = length s1 -> valid_cfg i1 -> Permutation s1 s2 -> exists i2, same_indices s1 i1 s2 i2 /\ valid_cfg i2 /\ length i2 = length s2 /\
  forall y, In y s2 -> zof s2 i2 y = zof s1 i1 y.
Proof.
  intros N1 N2 L1 V1 Hp. exists (map (zof s1 i1) s2).
  assert (Hz : forall y, In y s2 -> zof s2 (map (zof s1 i1) s2) y = zof s1 i1 y).
  { intros y Hy. unfold zof at 1. destruct (spos_in y s2 Hy) as (j & E & Hj). rewrite E. apply spos_some in E as [E _].
    rewrite (nth_map_lt (zof s1 i1) s2 j 0%Z ""%string Hj). rewrite (nth_error_nth s2 j ""%string E). reflexivity. }
  split; [|split; [|split; [apply map_length|exact Hz]]].
  - split; [exact L1|]. split; [apply map_length|]. intros x z. rewrite <- (zof_map s1 i1 N1 L1) at 1.
    assert (Hc : forall s (h : string -> Z), In (x, z) (combine s (map h s)) <-> In x s /\ z = h x).
    { intros s h. split.
      - induction s as [|y s IH]; [intros []|]. cbn [map combine]. intros [E|H]; [injection E as <- <-; split; [left|]; reflexivity|]. destruct (IH H). split; [right|]; assumption.
      - intros [Hx ->]. induction s as [|y s IH]; [destruct Hx|]. cbn [map combine]. destruct Hx as [->|Hx]; [left; reflexivity|right; auto]. }
    rewrite !Hc. split; intros [H E]; (split; [|exact E]); [eapply Permutation_in; [exact Hp|exact H]|eapply Permutation_in; [apply Permutation_sym, Hp|exact H]].
  - apply Forall_forall. intros z Hz'. apply in_map_iff in Hz' as (y & <- & Hy). apply zof_valid; [exact V1|exact L1|]. eapply Permutation_in; [apply Permutation_sym, Hp|exact Hy].
Qed.

Lemma steps_add w x y s1 i1 F1 s2 i2 F2 : base_ok w -> tens w x s1 i1 F1 -> tens w y s2 i2 F2 -> Permutation s1 s2 ->
  steps w (calc_add x (OCalc y)) (fun z w' => exists h2 i2', same_indices s1 i1 s2 i2' /\ valid_cfg i2' /\ length i2' = length s2 /\ (forall y, In y s2 -> zof s2 i2' y = zof s1 i1 y) /\
    (forall f, (forall y, In y s2 -> f y < n) -> keq (h2 (map f s2)) (F2 f)) /\
    tens w' z s1 i1 (fun f => kadd (F1 f) (converted n g gi i2 i2' h2 (map f s2)))).
Proof.
  intros B T1 T2 Hp. destruct (tens_labelled _ _ _ _ _ (proj1 B) T1) as (t1 & k1 & o1 & a1 & h1 & X1 & Mt & O1 & K1 & N1 & M1 & E1 & C1 & S1 & Ca1 & R1 & Rl1 & Y1 & He & G1 & V1 & H1).
  destruct (tens_labelled _ _ _ _ _ (proj1 B) T2) as (t2 & k2 & o2 & a2 & h2 & X2 & Mt2 & O2 & K2 & N2 & M2 & E2 & C2 & S2 & Ca2 & R2 & Rl2 & Y2 & He2 & G2 & V2 & H2).
  assert (HS := proj1 B). assert (Hsys : coordinate_system w c n) by apply HS.
  assert (X1' := X1). destruct X1' as (_ & _ & _ & Nx & Lx & _ & Vx). assert (X2' := X2). destruct X2' as (_ & _ & _ & Ny & Ly & _ & Vy). rewrite Y1, E1 in *. rewrite Y2, E2 in *.
  destruct (same_indices_ex s1 i1 s2 Nx Ny (eq_sym Lx) Vx Hp) as (j & Hj & Vj & Lj & Zj).
  destruct (operand_get w t2 i2 h2 j HS Mt2 O2 Vj ltac:(congruence)) as (b & w2 & Eb & Hb & SS2 & X).
  destruct (add_run w x y t1 o1 t2 o2 m c n j a1 w b w2) as (a & E & Ca & Ra & Va); try assumption.
  - apply HS.
  - rewrite Y1, Y2. exact Hp.
  - rewrite Y1, Y2, E1. exact Hj.
  - rewrite E1. exact G1.
  - apply Hb.
  - destruct Hb as (_ & -> & _). congruence.
  - rewrite E1, Y1, Y2 in *. assert (B2 := base_ext w w2 B SS2 X).
    destruct (steps_new w (calc_add x (OCalc y)) w2 s1 i1 a (fun f => kadd (F1 f) (converted n g gi i2 j h2 (map f s2))) B2 HS X E Nx Lx Vx Ca Ra) as (z & w' & E' & S' & X' & T').
    + intros f Hf. rewrite (Va f Hf), (V1 f Hf). destruct Hb as (_ & _ & Hb). rewrite Hb; [reflexivity|]. rewrite <- Ly. apply in_range_map.
      intros y' Hy'. apply Hf. eapply Permutation_in; [apply Permutation_sym, Hp|exact Hy'].
    + exists z, w'. split; [exact E'|]. split; [exact S'|]. split; [exact X'|]. exists h2, j. auto 10.
Qed.
Lemma steps_mul w x y s1 i1 F1 s2 i2 F2 i2' : base_ok w -> tens w x s1 i1 F1 -> tens w y s2 i2 F2 -> i1 <> [] -> i2 <> [] ->
  opposite s1 i1 s2 i2 i2' -> valid_cfg i2' ->
  steps w (matmul0 x y) (fun z w' => exists h2, (forall f, (forall y, In y s2 -> f y < n) -> keq (h2 (map f s2)) (F2 f)) /\
    tens w' z (without s1 s2 ++ without s2 s1) (indices_without s1 i1 s2 ++ indices_without s2 i2 s1)
      (fun f => lsum (tuples n (length (common s1 s2))) (fun ks => kmul (F1 (assign (common s1 s2) ks f)) (converted n g gi i2 i2' h2 (map (assign (common s1 s2) ks f) s2))))).
Proof.
  intros B T1 T2 P1 P2 Ho Vj. destruct (tens_labelled _ _ _ _ _ (proj1 B) T1) as (t1 & k1 & o1 & a1 & h1 & X1 & Mt & O1 & K1 & N1 & M1 & E1 & C1 & S1 & Ca1 & R1 & Rl1 & Y1 & He & G1 & V1 & H1).
  destruct (tens_labelled _ _ _ _ _ (proj1 B) T2) as (t2 & k2 & o2 & a2 & h2 & X2 & Mt2 & O2 & K2 & N2 & M2 & E2 & C2 & S2 & Ca2 & R2 & Rl2 & Y2 & He2 & G2 & V2 & H2).
  assert (HS := proj1 B). assert (Hsys : coordinate_system w c n) by apply HS.
  assert (X1' := X1). destruct X1' as (_ & _ & _ & Nx & Lx & _ & Vx). assert (X2' := X2). destruct X2' as (_ & _ & _ & Ny & Ly & _ & Vy). rewrite Y1, E1 in *. rewrite Y2, E2 in *.
  assert (Lj : length i2' = length i2) by (destruct Ho as [H _]; congruence).
  destruct (operand_get w t2 i2 h2 i2' HS Mt2 O2 Vj Lj) as (b & w2 & Eb & Hb & SS2 & X).
  destruct (matmul_run w x y t1 o1 t2 o2 m c n i2' a1 w b w2) as (a & E & Ca & Ra & Va); try assumption.
  - apply HS.
  - apply HS.
  - rewrite Rl1. destruct i1; [congruence|cbn; lia].
  - rewrite Rl2. destruct i2; [congruence|cbn; lia].
  - rewrite Y1, Y2, E1, E2. exact Ho.
  - rewrite E1. exact G1.
  - apply Hb.
  - destruct Hb as (_ & -> & _). congruence.
  - cbv zeta in *. rewrite E1, E2, Y1, Y2 in *. assert (B2 := base_ext w w2 B SS2 X).
    assert (Hs1 : without s1 s2 ++ without s2 s1 = free_symbols s1 s2) by (symmetry; apply free_split).
    assert (Nf : NoDup (without s1 s2 ++ without s2 s1)) by (rewrite Hs1; apply Calc2_P.free_nodup; assumption).
    assert (Lf : length (without s1 s2 ++ without s2 s1) = length (indices_without s1 i1 s2 ++ indices_without s2 i2 s1)) by (rewrite !app_length, !indices_without_length by auto; reflexivity).
    assert (Vf : valid_cfg (indices_without s1 i1 s2 ++ indices_without s2 i2 s1)) by (apply Forall_app; split; apply indices_without_valid; assumption).
    destruct (steps_new w (matmul0 x y) w2 _ _ a (fun f => lsum (tuples n (length (common s1 s2))) (fun ks => kmul (F1 (assign (common s1 s2) ks f)) (converted n g gi i2 i2' h2 (map (assign (common s1 s2) ks f) s2)))) B2 HS X E Nf Lf Vf Ca Ra) as (z & w' & E' & S' & X' & T').
    + intros f Hf. rewrite (Va f Hf). apply lsum_ext. intros ks Hks.
      assert (Hr : forall s, (forall y, In y s -> In y (without s1 s2 ++ without s2 s1) \/ In y (common s1 s2)) -> forall y, In y s -> assign (common s1 s2) ks f y < n).
      { intros s Hs y' Hy. unfold assign. destruct (index_of String.eqb y' (common s1 s2)) as [j|] eqn:Ej.
        - apply spos_some in Ej as [Ej _]. assert (Hj : j < length (common s1 s2)) by (apply nth_error_Some; congruence).
          apply in_tuples in Hks as [Lk Hk]. apply (proj1 (Forall_forall _ _) Hk). apply nth_In. lia.
        - apply Hf. destruct (Hs y' Hy) as [H|H]; [exact H|]. apply spos_none in Ej. contradiction. }
      destruct Hb as (_ & _ & Hb). rewrite V1, Hb; [reflexivity| |].
      * rewrite <- Ly. apply in_range_map. apply Hr. intros y' Hy.
        destruct (in_dec string_dec y' s1) as [H|H]; [right; apply common_in; auto|left; apply in_app_iff; right; apply without_in; auto].
      * apply Hr. intros y' Hy. destruct (in_dec string_dec y' s2) as [H|H]; [right; apply common_in; auto|left; apply in_app_iff; left; apply without_in; auto].
    + exists z, w'. split; [exact E'|]. split; [exact S'|]. split; [exact X'|]. exists h2. auto.
Qed.
Lemma steps_mul_scalar w x y s1 i1 F1 s2 i2 F2 : base_ok w -> tens w x s1 i1 F1 -> tens w y s2 i2 F2 -> i1 = [] \/ i2 = [] ->
  steps w (matmul0 x y) (fun z w' => tens w' z (s1 ++ s2) (i1 ++ i2) (fun f => kmul (F1 f) (F2 f))).
Proof.
  intros B T1 T2 P. destruct (tens_labelled _ _ _ _ _ (proj1 B) T1) as (t1 & k1 & o1 & a1 & h1 & X1 & Mt & O1 & K1 & N1 & M1 & E1 & C1 & S1 & Ca1 & R1 & Rl1 & Y1 & He & G1 & V1 & H1).
  destruct (tens_labelled _ _ _ _ _ (proj1 B) T2) as (t2 & k2 & o2 & a2 & h2 & X2 & Mt2 & O2 & K2 & N2 & M2 & E2 & C2 & S2 & Ca2 & R2 & Rl2 & Y2 & He2 & G2 & V2 & H2).
  assert (HS := proj1 B). assert (Hsys : coordinate_system w c n) by apply HS.
  destruct (matmul_scalar_run w x y t1 o1 t2 o2 k1 k2 m c n a1 a2) as (a & E & Ca & Ra & Va); try assumption.
  - apply HS.
  - rewrite Rl1, Rl2. destruct P as [-> | ->]; [left|right]; reflexivity.
  - rewrite E1, E2, Y1, Y2 in *.
    destruct X1 as (_ & _ & _ & Nx & Lx & _ & Vx). destruct X2 as (_ & _ & _ & Ny & Ly & _ & Vy). rewrite Y1, E1 in *. rewrite Y2, E2 in *.
    assert (P' : s1 = [] \/ s2 = []) by (destruct P as [-> | ->]; [left|right]; apply length_zero_iff_nil; assumption).
    eapply (steps_new w _ w (s1 ++ s2) (i1 ++ i2) a); try eassumption.
    + apply ext_refl.
    + destruct P' as [-> | ->]; [exact Ny|rewrite app_nil_r; exact Nx].
    + rewrite !app_length. congruence.
    + apply Forall_app. auto.
    + intros f Hf. rewrite (Va f Hf), V1, V2; [reflexivity| |]; intros z Hz; apply Hf, in_app_iff; auto.
Qed.
End Run.
