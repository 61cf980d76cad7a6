(** The evaluation of formulas in a session with one metric: temporary tensors are added, and
    every operand is known by its values. *)
From Verif Require Import Alg Alg_P Arr Arr_P Spec UtilsM Utils_P Arr2_P Act_P RL_P TensorM WorldM SpecWorld World_P Registry_P CalcM SpecCalc Keep_P Calc_P Calc2_P Calc3_P Calc4_P Trace_P Run_P CurvM SpecCurv.
Local Open Scope nat_scope.

Section Form.
Context {A : AlgOps} {L : AlgLaws A} {D : DiffLaws A}.
Add Ring Kring : kring (setoid keq_equiv kring_ext).
Variables (w0 : world) (n : nat) (m c : oid) (name : string) (xs : list string) (g gi : nat -> nat -> K).
Hypothesis HS : metric_session w0 n m c name xs g gi.

Definition temp_at (w : world) (j : oid) : Prop :=
  j < length (heap w) /\ exists o, obj_of w j = Some o /\ o_name o = "TEMP"%string /\ forall k, refers o k -> k = c \/ k = m.
Definition form (w : world) : Prop :=
  typed w /\ length (heap w0) <= length (heap w) /\
  (forall j, j < length (heap w0) -> nth_error (heap w) j = nth_error (heap w0) j) /\
  exists l, insts w = insts w0 ++ l /\ NoDup l /\ forall j, In j l -> length (heap w0) <= j /\ temp_at w j.

Definition comps_le (o o' : obj) : Prop :=
  forall c d i a, dget Nat.eqb c (o_comps o) = Some d -> dget cfg_eqb i d = Some a ->
  exists d', dget Nat.eqb c (o_comps o') = Some d' /\ dget cfg_eqb i d' = Some a.
Definition grow (w w' : world) : Prop :=
  forall j o, obj_of w j = Some o -> cls_of w' j = cls_of w j /\ exists o', obj_of w' j = Some o' /\ same_attrs o o' /\ comps_le o o'.

Lemma grow_refl w : grow w w.
Proof. intros j o H. split; [reflexivity|]. exists o. split; [exact H|]. split; [apply same_attrs_refl|]. intros c' d i a H1 H2. eauto. Qed.
Lemma grow_trans w1 w2 w3 : grow w1 w2 -> grow w2 w3 -> grow w1 w3.
Proof.
  intros H1 H2 j o Ho. destruct (H1 j o Ho) as (K1 & o' & Ho' & S1 & C1). destruct (H2 j o' Ho') as (K2 & o'' & Ho'' & S2 & C2).
  split; [congruence|]. exists o''. split; [exact Ho''|]. split; [eapply same_attrs_trans; eauto|].
  intros c' d i a E1 E2. destruct (C1 _ _ _ _ E1 E2) as (d' & E3 & E4). eauto.
Qed.
Lemma grow_fresh w k o : grow w (fresh_world w k o).
Proof.
  intros j oj H. assert (Hl := obj_of_lt _ _ _ H). split; [apply cls_of_fresh; lia|].
  exists oj. split; [apply obj_fresh_old, H|]. split; [apply same_attrs_refl|]. intros c' d i a H1 H2. eauto.
Qed.

(** What the formula needs from the session. *)
Lemma s_lt_c : c < length (heap w0).
Proof. destruct HS as (_ & _ & _ & _ & [H _] & _). eapply cls_of_lt, H. Qed.
Lemma s_lt_m : m < length (heap w0).
Proof. destruct HS as (_ & _ & _ & _ & _ & _ & _ & _ & H & _). eapply cls_of_lt, H. Qed.
Lemma form_old w j : form w -> j < length (heap w0) -> obj_of w j = obj_of w0 j /\ cls_of w j = cls_of w0 j.
Proof. intros (_ & _ & H & _) Hj. unfold obj_of, cls_of. rewrite H by exact Hj. auto. Qed.
Lemma form_base : form w0.
Proof.
  split; [apply HS|]. split; [lia|]. split; [reflexivity|]. exists []. rewrite app_nil_r. split; [reflexivity|]. split; [constructor|]. intros j [].
Qed.
Lemma form_system w : form w -> coordinate_system w c n.
Proof.
  intros F. destruct HS as (_ & _ & _ & _ & [H (oc & d & x & H1 & H2)] & _). destruct (form_old w c F s_lt_c) as [E1 E2].
  split; [congruence|]. exists oc, d, x. split; [congruence|exact H2].
Qed.
Lemma form_syms w : form w -> exists oc, obj_of w c = Some oc /\ o_syms oc = xs /\ length xs = n.
Proof.
  intros F. destruct HS as (_ & _ & _ & _ & _ & _ & _ & (oc & H1 & H2) & _). destruct (form_old w c F s_lt_c) as [E1 E2].
  exists oc. split; [congruence|exact H2].
Qed.
Lemma form_metric w : form w -> cls_of w m = Some CMetric.
Proof. intros F. destruct (form_old w m F s_lt_m) as [_ E2]. rewrite E2. apply HS. Qed.
Lemma form_pos : 1 <= n.
Proof. apply HS. Qed.

Lemma form_fresh w sy i a : form w -> form (fresh_world w CTensor (tobj "TEMP" sy i c m a)).
Proof.
  intros F. assert (Hc := proj1 (form_system w F)). assert (Hm := form_metric w F). destruct F as (Ht & Hl & Ho & l & Hi & Nl & Hj).
  split; [|split; [|split]].
  - apply typed_fresh; [exact Ht| |]; intros x Hx; injection Hx as <-; assumption.
  - cbn [fresh_world heap]. rewrite app_length. lia.
  - intros j Hjl. cbn [fresh_world heap]. rewrite nth_error_app1 by lia. apply Ho, Hjl.
  - exists (l ++ [length (heap w)]). cbn [fresh_world insts]. rewrite Hi, app_assoc. split; [reflexivity|]. split.
    + apply nodup_app; [exact Nl|repeat constructor; intros []|]. intros j H1 [<-|[]]. destruct (Hj _ H1) as (_ & H2 & _). lia.
    + intros j H1. apply in_app_iff in H1 as [H1|[<-|[]]].
      * destruct (Hj j H1) as (H2 & H3 & o & H4 & H5). split; [exact H2|]. split; [cbn [fresh_world heap]; rewrite app_length; lia|].
        exists o. split; [apply obj_fresh_old, H4|exact H5].
      * split; [exact Hl|]. split; [cbn [fresh_world heap]; rewrite app_length; cbn; lia|]. exists (tobj "TEMP" sy i c m a).
        split; [apply obj_fresh_new|]. split; [reflexivity|]. apply tobj_refers.
Qed.

(** *** Operands *)
Definition tens (w : world) (x : calc) (s : list string) (i : list Z) (F : (string -> nat) -> K) : Prop :=
  c_syms x = s /\ exists t k o a, labelled w x t o /\ cls_of w t = Some k /\ k <> CCoordinates /\
    o_metric o = Some m /\ o_indices o = i /\ stored_default o c a /\ cubic n a /\ rank a = length i /\
    forall f, (forall y, In y s -> f y < n) -> keq (aget a (map f s)) (F f).

Lemma stored_le o o' a : same_attrs o o' -> comps_le o o' -> stored_default o c a -> stored_default o' c a.
Proof.
  intros (_ & _ & S1 & _ & S2 & _) C (H1 & d & H2 & H3). split; [congruence|]. rewrite S1. apply (C _ _ _ _ H2 H3).
Qed.
Lemma tens_grow w w' x s i F : grow w w' -> tens w x s i F -> tens w' x s i F.
Proof.
  intros G (Hs & t & k & o & a & (R & T & O & N & Ln & K & V) & Hk & Nk & Mo & Ei & Sd & Ca & Ra & Va).
  destruct (G t o O) as (K' & o' & O' & Sa & Cl). assert (Sd' := stored_le _ _ _ Sa Cl Sd).
  destruct Sa as (_ & _ & S1 & S2 & S3 & S4 & _). split; [exact Hs|]. exists t, k, o', a.
  split; [split; [exact R|split; [exact T|split; [exact O'|split; [exact N|rewrite S1, S2; auto]]]]|].
  split; [congruence|]. split; [exact Nk|]. split; [congruence|]. split; [congruence|]. auto.
Qed.
Lemma tens_ext w x s i F F' : (forall f, (forall y, In y s -> f y < n) -> keq (F f) (F' f)) -> tens w x s i F -> tens w x s i F'.
Proof.
  intros H (Hs & t & k & o & a & H1 & H2 & H3 & H4 & H5 & H6 & H7 & H8 & V). split; [exact Hs|]. exists t, k, o, a.
  do 8 (split; [assumption|]). intros f Hf. rewrite (V f Hf). apply H, Hf.
Qed.
Lemma tens_new w s i a F : form w -> NoDup s -> length s = length i -> valid_cfg i -> cubic n a -> rank a = length i ->
  (forall f, (forall y, In y s -> f y < n) -> keq (aget a (map f s)) (F f)) ->
  tens (fresh_world w CTensor (tobj "TEMP" "T" i c m a)) (new_calc w s) s i F.
Proof.
  intros Fw Ns Ls V Ca Ra Va. split; [reflexivity|]. exists (length (heap w)), CTensor, (tobj "TEMP" "T" i c m a), a.
  split; [apply new_labelled; assumption|]. split; [apply cls_fresh_new|]. split; [discriminate|]. split; [reflexivity|]. split; [reflexivity|].
  split; [apply tobj_stored|]. auto.
Qed.

(** *** Programs *)
Definition runs {X} (w : world) (p : M X) (Q : X -> world -> Prop) : Prop :=
  exists x w', p w = (Ok x, w') /\ form w' /\ grow w w' /\ Q x w'.
Lemma runs_bind {X Y} w (p : M X) (k : X -> M Y) Q R :
  runs w p Q -> (forall x w1, form w1 -> grow w w1 -> Q x w1 -> runs w1 (k x) R) -> runs w (mbind p k) R.
Proof.
  intros (x & w1 & E & F & G & HQ) H. destruct (H x w1 F G HQ) as (y & w2 & E2 & F2 & G2 & HR).
  exists y, w2. split; [rewrite (bind_ok _ _ _ _ _ E); exact E2|]. split; [exact F2|]. split; [eapply grow_trans; eauto|exact HR].
Qed.
Lemma runs_ret {X} w (x : X) (Q : X -> world -> Prop) : form w -> Q x w -> runs w (mret x) Q.
Proof. intros F H. exists x, w. split; [reflexivity|]. split; [exact F|]. split; [apply grow_refl|exact H]. Qed.
Lemma runs_derivative {Y} w a (k : calc -> M Y) R : runs w (k (mkCalc None [a] RPartial)) R -> runs w (mbind (PartialD [a]) k) R.
Proof. intros H. exact H. Qed.

(** The operand as an object with its stored components. *)
Lemma tens_get w x s i F : form w -> tens w x s i F -> exists t k o a, labelled w x t o /\ cls_of w t = Some k /\ k <> CCoordinates /\
    o_metric o = Some m /\ o_indices o = i /\ stored_default o c a /\ o_coords o = Some c /\ cubic n a /\ rank a = o_rank o /\ rank a = length i /\ c_syms x = s /\
    get_components t (Some c) (Some (o_indices o)) w = (Ok a, w) /\
    forall f, (forall y, In y s -> f y < n) -> keq (aget a (map f s)) (F f).
Proof.
  intros Fw (Hs & t & k & o & a & Hx & Hk & Nk & Mo & Ei & Sd & Ca & Ra & Va). exists t, k, o, a.
  assert (Hx' := Hx). destruct Hx' as (R & T & O & N & Ln & K & V).
  split; [exact Hx|]. split; [exact Hk|]. split; [exact Nk|]. split; [exact Mo|]. split; [exact Ei|]. split; [exact Sd|]. split; [apply Sd|].
  split; [exact Ca|]. split; [congruence|]. split; [congruence|]. split; [exact Hs|]. split; [|exact Va].
  eapply stored_default_get; eauto. apply (form_system w Fw).
Qed.

(** t(s) without repeated symbols *)
Lemma runs_call w t s i h : form w -> tensor_value w n m c t i h -> NoDup s -> length s = length i -> valid_cfg i ->
  runs w (calc_call t s) (fun x w' => w' = w /\ tens w x s i (fun f => h (map f s))).
Proof.
  intros F (k & o & a & Hk & Nk & Ho & Mo & Ei & Ro & Sd & (Ca & Ra & Va)) Ns Ls V.
  exists (mkCalc (Some t) s RTensor), w. split; [|split; [exact F|split; [apply grow_refl|split; [reflexivity|]]]].
  - unfold calc_call. eapply calc_init_plain; [exact Hk|exact Nk|exact Ho| | |rewrite Ra; congruence|exact Ns].
    + rewrite (get_default w t o c Ho (proj1 Sd)). eapply stored_default_get; eauto; [apply (form_system w F)|congruence|congruence].
    + congruence.
  - split; [reflexivity|]. exists t, k, o, a. subst i. split.
    { split; [reflexivity|]. split; [reflexivity|]. split; [exact Ho|]. auto. }
    do 7 (split; [auto|]). intros f Hf. apply Va. split; [rewrite map_length; exact Ls|]. apply Forall_forall. intros z Hz.
    apply in_map_iff in Hz as (y & <- & Hy). apply Hf, Hy.
Qed.
Lemma value_grow w w' t i h : grow w w' -> tensor_value w n m c t i h -> tensor_value w' n m c t i h.
Proof.
  intros G (k & o & a & Hk & Nk & Ho & Mo & Ei & Ro & Sd & Ha). destruct (G t o Ho) as (K' & o' & O' & Sa & Cl).
  assert (Sd' := stored_le _ _ _ Sa Cl Sd). destruct Sa as (_ & _ & S1 & S2 & S3 & S4 & _).
  exists k, o', a. split; [congruence|]. split; [exact Nk|]. split; [exact O'|]. split; [congruence|]. split; [congruence|]. split; [congruence|]. auto.
Qed.
Lemma value_old w t i h : form w -> t < length (heap w0) -> tensor_value w0 n m c t i h -> tensor_value w n m c t i h.
Proof.
  intros F Ht (k & o & a & Hk & Nk & Ho & H). destruct (form_old w t F Ht) as [E1 E2]. exists k, o, a.
  split; [congruence|]. split; [exact Nk|]. split; [congruence|exact H].
Qed.

Lemma runs_add w x y s1 i1 F1 s2 i2 F2 : form w -> tens w x s1 i1 F1 -> tens w y s2 i2 F2 -> Permutation s1 s2 ->
  same_indices s1 i1 s2 i2 -> runs w (calc_add x (OCalc y)) (fun z w' => tens w' z s1 i1 (fun f => kadd (F1 f) (F2 f))).
Proof.
  intros F T1 T2 Hp Hi. destruct (tens_get _ _ _ _ _ F T1) as (t1 & k1 & o1 & a1 & X1 & K1 & N1 & M1 & E1 & S1 & C1 & Ca1 & R1 & Rl1 & Y1 & G1 & V1).
  destruct (tens_get _ _ _ _ _ F T2) as (t2 & k2 & o2 & a2 & X2 & K2 & N2 & M2 & E2 & S2 & C2 & Ca2 & R2 & Rl2 & Y2 & G2 & V2).
  destruct (add_run w x y t1 o1 t2 o2 m c n i2 a1 w a2 w) as (a & E & Ca & Ra & Va); try assumption;
    [apply F|apply (form_system w F)|rewrite Y1, Y2; exact Hp|rewrite Y1, Y2, E1; exact Hi|rewrite <- E2; exact G2|].
  eexists _, _. split; [exact E|]. rewrite E1, Y1 in *. split; [apply form_fresh, F|]. split; [apply grow_fresh|].
  destruct X1 as (_ & _ & _ & Nx & Lx & _ & Vx). rewrite Y1, E1 in *.
  apply tens_new; try assumption. intros f Hf. rewrite (Va f Hf), Y2, (V1 f Hf), V2; [reflexivity|].
  intros z Hz. apply Hf. apply Permutation_sym in Hp. eapply Permutation_in; eauto.
Qed.

Lemma ranked o : o_rank o = length (o_indices o) -> o_indices o <> [] -> is_expr o c = false.
Proof. intros H H'. unfold is_expr. destruct (o_indices o); [congruence|]. rewrite H. reflexivity. Qed.
Lemma runs_neg w x s i F1 : form w -> tens w x s i F1 -> i <> [] -> runs w (calc_neg x) (fun z w' => tens w' z s i (fun f => kopp (F1 f))).
Proof.
  intros F T1 Ni. destruct (tens_get _ _ _ _ _ F T1) as (t1 & k1 & o1 & a1 & X1 & K1 & N1 & M1 & E1 & S1 & C1 & Ca1 & R1 & Rl1 & Y1 & G1 & V1).
  assert (He : is_expr o1 c = false) by (apply ranked; congruence).
  assert (E := neg_run w x t1 o1 m c n a1 (proj1 F) X1 S1 M1 (form_system w F) Ca1 R1 He).
  eexists _, _. split; [exact E|]. rewrite E1, Y1 in *. split; [apply form_fresh, F|]. split; [apply grow_fresh|].
  destruct X1 as (_ & _ & _ & Nx & Lx & _ & Vx). rewrite Y1, E1 in *.
  destruct (amap_values n kopp a1 Ca1) as (H1 & H2 & H3). apply tens_new; try assumption. intros f Hf.
  rewrite H3, (V1 f Hf); [reflexivity|]. destruct Ca1 as [_ ->]. rewrite Rl1, <- Lx. apply inb_assign, Hf.
Qed.
Lemma runs_scale w x k s i F1 : form w -> tens w x s i F1 -> runs w (calc_mul x (OScalar k)) (fun z w' => tens w' z s i (fun f => kmul k (F1 f))).
Proof.
  intros F T1. destruct (tens_get _ _ _ _ _ F T1) as (t1 & k1 & o1 & a1 & X1 & K1 & N1 & M1 & E1 & S1 & C1 & Ca1 & R1 & Rl1 & Y1 & G1 & V1).
  assert (E := scale_run w x k t1 o1 m c n a1 (proj1 F) X1 S1 M1 (form_system w F) Ca1 R1).
  eexists _, _. split; [exact E|]. rewrite E1, Y1 in *. split; [apply form_fresh, F|]. split; [apply grow_fresh|].
  destruct X1 as (_ & _ & _ & Nx & Lx & _ & Vx). rewrite Y1, E1 in *.
  destruct (amap_values n (kmul k) a1 Ca1) as (H1 & H2 & H3). apply tens_new; try assumption. intros f Hf.
  rewrite H3, (V1 f Hf); [reflexivity|]. destruct Ca1 as [_ ->]. rewrite Rl1, <- Lx. apply inb_assign, Hf.
Qed.

Lemma runs_sub w x y s1 i1 F1 s2 i2 F2 : form w -> tens w x s1 i1 F1 -> tens w y s2 i2 F2 -> Permutation s1 s2 ->
  same_indices s1 i1 s2 i2 -> i2 <> [] -> runs w (calc_sub x (OCalc y)) (fun z w' => tens w' z s1 i1 (fun f => ksub (F1 f) (F2 f))).
Proof.
  intros F T1 T2 Hp Hi Ni.
  assert (H : runs w (let! z := calc_neg y in calc_add x (OCalc z)) (fun z w' => tens w' z s1 i1 (fun f => ksub (F1 f) (F2 f)))).
  { eapply runs_bind; [apply (runs_neg w y s2 i2 F2 F T2 Ni)|]. intros z w1 Fw1 G1 T3.
    destruct (runs_add w1 x z s1 i1 F1 s2 i2 _ Fw1 (tens_grow _ _ _ _ _ _ G1 T1) T3 Hp Hi) as (u & w2 & E & Fw2 & G2 & T4).
    exists u, w2. split; [exact E|]. split; [exact Fw2|]. split; [exact G2|]. eapply tens_ext; [|exact T4].
    intros f Hf. cbv beta. ring. }
  destruct H as (z & w' & E & H). exists z, w'. split; [|exact H]. rewrite <- E. clear E H.
  destruct (tens_get _ _ _ _ _ F T1) as (t1 & k1 & o1 & a1 & X1 & K1 & N1 & M1 & E1 & S1 & C1 & Ca1 & R1 & Rl1 & Y1 & G1 & V1).
  destruct (tens_get _ _ _ _ _ F T2) as (t2 & k2 & o2 & a2 & X2 & K2 & N2 & M2 & E2 & S2 & C2 & Ca2 & R2 & Rl2 & Y2 & G2 & V2).
  destruct X1 as (Rx & Tx & Ox & Nx & Lx & Kx & Vx), X2 as (Ry & Ty & Oy & Ny & Ly & Ky & Vy).
  unfold calc_sub. rewrite Rx, Ry. cbn [is_tensor_role negb orb].
  rewrite (bind_ok _ _ t1 w w) by (unfold tensor_of; rewrite Tx; reflexivity). rewrite (bind_ok _ _ o1 w w) by (apply getobj_ok, Ox).
  rewrite (bind_ok _ _ t2 w w) by (unfold tensor_of; rewrite Ty; reflexivity). rewrite (bind_ok _ _ o2 w w) by (apply getobj_ok, Oy).
  assert (Hlen := Permutation_length Hp).
  assert (Er : (o_rank o1 =? o_rank o2) = true) by (apply Nat.eqb_eq; congruence). rewrite Er. cbn [negb].
  rewrite <- Y1, <- Y2 in Hp. rewrite (proj2 (is_permutation_spec _ _) Hp). cbn [negb]. rewrite andb_false_r. reflexivity.
Qed.

(** Products whose shared symbols are in opposite positions in the default configurations. *)
Lemma runs_mul w x y s1 i1 F1 s2 i2 F2 : form w -> tens w x s1 i1 F1 -> tens w y s2 i2 F2 -> i1 <> [] -> i2 <> [] ->
  opposite s1 i1 s2 i2 i2 ->
  runs w (matmul0 x y) (fun z w' => tens w' z (without s1 s2 ++ without s2 s1) (indices_without s1 i1 s2 ++ indices_without s2 i2 s1)
    (fun f => lsum (tuples n (length (common s1 s2))) (fun ks => kmul (F1 (assign (common s1 s2) ks f)) (F2 (assign (common s1 s2) ks f))))).
Proof.
  intros F T1 T2 P1 P2 Ho. destruct (tens_get _ _ _ _ _ F T1) as (t1 & k1 & o1 & a1 & X1 & K1 & N1 & M1 & E1 & S1 & C1 & Ca1 & R1 & Rl1 & Y1 & G1 & V1).
  destruct (tens_get _ _ _ _ _ F T2) as (t2 & k2 & o2 & a2 & X2 & K2 & N2 & M2 & E2 & S2 & C2 & Ca2 & R2 & Rl2 & Y2 & G2 & V2).
  destruct (matmul_run w x y t1 o1 t2 o2 m c n i2 a1 w a2 w) as (a & E & Ca & Ra & Va); try assumption.
  - apply F.
  - apply form_pos.
  - apply (form_system w F).
  - rewrite <- R1, Rl1. destruct i1; [congruence|cbn; lia].
  - rewrite <- R2, Rl2. destruct i2; [congruence|cbn; lia].
  - rewrite Y1, Y2, E1, E2. exact Ho.
  - rewrite <- E2. exact G2.
  - eexists _, _. split; [exact E|]. rewrite E1, E2, Y1, Y2 in *. split; [apply form_fresh, F|]. split; [apply grow_fresh|].
    destruct X1 as (_ & _ & _ & Nx & Lx & _ & Vx). destruct X2 as (_ & _ & _ & Ny & Ly & _ & Vy). rewrite Y1, E1 in *. rewrite Y2, E2 in *.
    assert (Hs1 : without s1 s2 ++ without s2 s1 = free_symbols s1 s2) by (symmetry; apply free_split).
    apply tens_new; try assumption.
    + rewrite Hs1. apply free_nodup; assumption.
    + rewrite !app_length, !indices_without_length by auto. reflexivity.
    + apply Forall_app. split; apply indices_without_valid; assumption.
    + intros f Hf. rewrite (Va f Hf). apply lsum_ext. intros ks Hks.
      assert (Hr : forall s, (forall y, In y s -> In y (without s1 s2 ++ without s2 s1) \/ In y (common s1 s2)) -> forall y, In y s -> assign (common s1 s2) ks f y < n).
      { intros s Hs y' Hy. unfold assign. destruct (index_of String.eqb y' (common s1 s2)) as [j|] eqn:Ej.
        - apply spos_some in Ej as [Ej _]. assert (Hj : j < length (common s1 s2)) by (apply nth_error_Some; congruence).
          apply in_tuples in Hks as [Lk Hk]. apply (proj1 (Forall_forall _ _) Hk). apply nth_In. lia.
        - apply Hf. destruct (Hs y' Hy) as [H|H]; [exact H|]. apply spos_none in Ej. contradiction. }
      rewrite V1, V2; [reflexivity| |]; apply Hr; intros y' Hy.
      * destruct (in_dec string_dec y' s1) as [H|H]; [right; apply common_in; auto|left; apply in_app_iff; right; apply without_in; auto].
      * destruct (in_dec string_dec y' s2) as [H|H]; [right; apply common_in; auto|left; apply in_app_iff; left; apply without_in; auto].
Qed.

Lemma runs_mul_scalar w x y s1 i1 F1 s2 i2 F2 : form w -> tens w x s1 i1 F1 -> tens w y s2 i2 F2 -> i1 = [] \/ i2 = [] ->
  runs w (matmul0 x y) (fun z w' => tens w' z (s1 ++ s2) (i1 ++ i2) (fun f => kmul (F1 f) (F2 f))).
Proof.
  intros F T1 T2 P. destruct (tens_get _ _ _ _ _ F T1) as (t1 & k1 & o1 & a1 & X1 & K1 & N1 & M1 & E1 & S1 & C1 & Ca1 & R1 & Rl1 & Y1 & G1 & V1).
  destruct (tens_get _ _ _ _ _ F T2) as (t2 & k2 & o2 & a2 & X2 & K2 & N2 & M2 & E2 & S2 & C2 & Ca2 & R2 & Rl2 & Y2 & G2 & V2).
  destruct (matmul_scalar_run w x y t1 o1 t2 o2 k1 k2 m c n a1 a2) as (a & E & Ca & Ra & Va); try assumption.
  - apply F.
  - apply (form_system w F).
  - rewrite <- R1, <- R2, Rl1, Rl2. destruct P as [-> | ->]; [left|right]; reflexivity.
  - eexists _, _. split; [exact E|]. rewrite E1, E2, Y1, Y2 in *. split; [apply form_fresh, F|]. split; [apply grow_fresh|].
    destruct X1 as (_ & _ & _ & Nx & Lx & _ & Vx). destruct X2 as (_ & _ & _ & Ny & Ly & _ & Vy). rewrite Y1, E1 in *. rewrite Y2, E2 in *.
    assert (P' : s1 = [] \/ s2 = []) by (destruct P as [-> | ->]; [left|right]; apply length_zero_iff_nil; assumption).
    apply tens_new; try assumption.
    + destruct P' as [-> | ->]; [exact Ny|rewrite app_nil_r; exact Nx].
    + rewrite !app_length. congruence.
    + apply Forall_app. auto.
    + intros f Hf. rewrite (Va f Hf), V1, V2; [reflexivity| |]; intros z Hz; apply Hf, in_app_iff; auto.
Qed.

Lemma runs_gradient w a y s i F1 : form w -> tens w y s i F1 -> ~ In a s ->
  runs w (matmul0 (mkCalc None [a] RPartial) y) (fun z w' => tens w' z (a :: s) (-1 :: i)%Z (fun f => kdiff (cx xs (f a)) (F1 f))).
Proof.
  intros F T1 Na. destruct (tens_get _ _ _ _ _ F T1) as (t1 & k1 & o1 & a1 & X1 & K1 & N1 & M1 & E1 & S1 & C1 & Ca1 & R1 & Rl1 & Y1 & G1 & V1).
  destruct (form_syms w F) as (oc & Hoc & Esy & Lsy).
  destruct (gradient_run w a y t1 o1 m c n oc a1 w) as (r & E & Cr & Rr & Vr); try assumption.
  - apply F.
  - apply form_pos.
  - rewrite Y1. exact Na.
  - apply (form_system w F).
  - congruence.
  - eexists _, _. split; [exact E|]. rewrite E1, Y1 in *. split; [apply form_fresh, F|]. split; [apply grow_fresh|].
    destruct X1 as (_ & _ & _ & Nx & Lx & _ & Vx). rewrite Y1, E1 in *. apply tens_new; try assumption.
    + constructor; assumption.
    + cbn. congruence.
    + constructor; [auto|exact Vx].
    + intros f Hf. rewrite (Vr f Hf), Esy. unfold cx. apply kdiff_proper. apply V1. intros z Hz. apply Hf. right; exact Hz.
Qed.
End Form.
