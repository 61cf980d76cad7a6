(** Formulas that contain one covariant derivative. *)
From Coq Require Import Permutation Bool.
From Verif Require Import Alg Alg_P Arr Arr_P Spec UtilsM Utils_P Arr2_P Act_P RL_P Tensor_P TensorM WorldM SpecWorld World_P Registry_P CalcM SpecCalc Keep_P Calc_P Calc2_P Calc3_P Calc4_P Trace_P Run_P CurvM SpecCurv SpecForm SpecCov SpecHead Form_P Form2_P CurvRun_P Norm_P Scalar_P Along_P Label_P FormVal_P FormVal2_P FormRun_P FormRun2_P FormCov_P FormTop_P Cov4_P Deriv_P.
From Verif Require Import SpecHead SpecForm.
Local Open Scope nat_scope.

(** *** The number of the first tensor does not matter. *)
Section Number.
Context {A : AlgOps} {L : AlgLaws A} {D : DiffLaws A}.
Variables (n : nat) (xs : list string) (g gi : nat -> nat -> K).
Variables (conf conf' : oid -> list Z) (T T' : oid -> list nat -> K).

Lemma free_cfg_agree p : (forall t, In t (leaves p) -> conf' t = conf t) -> free_cfg conf' p = free_cfg conf p.
Proof.
  induction p as [t s|x IHx y IHy|x IHx y IHy|x IHx|k x IHx|k x IHx|x IHx y IHy|a x IHx]; intros H; cbn [free_cfg leaves] in *;
    try (apply IHx; intros t Ht; apply H; auto using in_or_app; fail).
  - rewrite H by (left; reflexivity). reflexivity.
  - rewrite IHx, IHy; [reflexivity| |]; intros t Ht; apply H, in_or_app; auto.
  - rewrite IHx by assumption. reflexivity.
Qed.
Lemma well_formed_agree p : (forall t, In t (leaves p) -> conf' t = conf t) -> well_formed conf p -> well_formed conf' p.
Proof.
  induction p as [t s|x IHx y IHy|x IHx y IHy|x IHx|k x IHx|k x IHx|x IHx y IHy|a x IHx]; intros H W; cbn [well_formed leaves] in *; try (apply IHx; assumption).
  - rewrite H by (left; reflexivity). exact W.
  - destruct W as (W1 & W2 & W3). split; [|split]; [apply IHx|apply IHy|]; auto; intros t Ht; apply H, in_or_app; auto.
  - destruct W as (W1 & W2 & W3). split; [|split]; [apply IHx|apply IHy|]; auto; intros t Ht; apply H, in_or_app; auto.
  - destruct W as (W1 & W2). split; [apply IHx|apply IHy]; auto; intros t Ht; apply H, in_or_app; auto.
  - destruct W as (W1 & W2). split; [apply IHx|]; auto.
Qed.
Lemma value_agree p : (forall t, In t (leaves p) -> conf' t = conf t /\ forall idx, keq (T' t idx) (T t idx)) ->
  forall f, keq (value conf' n xs g gi T' p f) (value conf n xs g gi T p f).
Proof.
  induction p as [t s|x IHx y IHy|x IHx y IHy|x IHx|k x IHx|k x IHx|x IHx y IHy|a x IHx]; intros H f; cbn [value leaves] in *.
  - apply contracted_ext. intros f1 f2. apply H. left; reflexivity.
  - rewrite IHx, IHy; [reflexivity| |]; intros t Ht; apply H, in_or_app; auto.
  - rewrite IHx, IHy; [reflexivity| |]; intros t Ht; apply H, in_or_app; auto.
  - rewrite IHx by assumption. reflexivity.
  - rewrite IHx by assumption. reflexivity.
  - rewrite IHx by assumption. reflexivity.
  - apply contracted_ext. intros f1 f2. rewrite IHx, IHy; [reflexivity| |]; intros t Ht; apply H, in_or_app; auto.
  - cbv zeta. rewrite (free_cfg_agree x) by (intros t Ht; apply H, Ht). apply lifted_ext. intros h. apply kdiff_proper. apply lifted_ext. apply IHx. exact H.
Qed.

Variables (d d' : oid) (s : list string).
Hypothesis first_cfg : conf' d' = conf d.
Hypothesis first_val : forall idx, keq (T' d' idx) (T d idx).

Lemma starting_syms x : free_syms (starting d' s x) = free_syms (starting d s x).
Proof. induction x; cbn [free_syms starting]; rewrite ?IHx; reflexivity. Qed.
Lemma starting_cfg x : (forall t, In t (others x) -> conf' t = conf t) -> free_cfg conf' (starting d' s x) = free_cfg conf (starting d s x).
Proof.
  induction x as [|x IHx y|x IHx y|x IHx|k x IHx|k x IHx|x IHx y|a x IHx|t0 r x IHx|t0 r x IHx|t0 r x IHx]; intros H; cbn [free_cfg starting others] in *;
    try (apply IHx; intros t Ht; apply H; auto using in_or_app; fail).
  - rewrite first_cfg. reflexivity.
  - rewrite !starting_syms, IHx, (free_cfg_agree y); [reflexivity| |]; intros t Ht; apply H, in_or_app; auto.
  - rewrite IHx by assumption. reflexivity.
  - rewrite H by (left; reflexivity). reflexivity.
  - rewrite H by (left; reflexivity). reflexivity.
  - rewrite starting_syms, IHx by (intros t Ht; apply H; right; exact Ht). rewrite H by (left; reflexivity). reflexivity.
Qed.
Lemma starting_wf x : (forall t, In t (others x) -> conf' t = conf t) -> well_formed conf (starting d s x) -> well_formed conf' (starting d' s x).
Proof.
  induction x as [|x IHx y|x IHx y|x IHx|k x IHx|k x IHx|x IHx y|a x IHx|t0 r x IHx|t0 r x IHx|t0 r x IHx]; intros H W; cbn [well_formed starting others] in *; try (apply IHx; assumption).
  - rewrite first_cfg. exact W.
  - rewrite starting_syms. destruct W as (W1 & W2 & W3). split; [|split]; [apply IHx|apply well_formed_agree|]; auto; intros t Ht; apply H, in_or_app; auto.
  - rewrite starting_syms. destruct W as (W1 & W2 & W3). split; [|split]; [apply IHx|apply well_formed_agree|]; auto; intros t Ht; apply H, in_or_app; auto.
  - destruct W as (W1 & W2). split; [apply IHx|apply well_formed_agree]; auto; intros t Ht; apply H, in_or_app; auto.
  - rewrite starting_syms. destruct W as (W1 & W2). split; [apply IHx|]; auto.
  - rewrite starting_syms, H by (left; reflexivity). destruct W as (W1 & W2 & W3). split; [|split]; [exact W1|apply IHx; [intros t Ht; apply H; right; exact Ht|exact W2]|exact W3].
  - rewrite starting_syms, H by (left; reflexivity). destruct W as (W1 & W2 & W3). split; [|split]; [exact W1|apply IHx; [intros t Ht; apply H; right; exact Ht|exact W2]|exact W3].
  - rewrite H by (left; reflexivity). destruct W as (W1 & W2). split; [exact W1|apply IHx; [intros t Ht; apply H; right; exact Ht|exact W2]].
Qed.
Lemma starting_value x : (forall t, In t (others x) -> conf' t = conf t /\ forall idx, keq (T' t idx) (T t idx)) ->
  forall f, keq (value conf' n xs g gi T' (starting d' s x) f) (value conf n xs g gi T (starting d s x) f).
Proof.
  induction x as [|x IHx y|x IHx y|x IHx|k x IHx|k x IHx|x IHx y|a x IHx|t0 r x IHx|t0 r x IHx|t0 r x IHx]; intros H f; cbn [value starting others] in *.
  - apply contracted_ext. intros f1 f2. apply first_val.
  - rewrite IHx, value_agree; [reflexivity| |]; intros t Ht; apply H, in_or_app; auto.
  - rewrite IHx, value_agree; [reflexivity| |]; intros t Ht; apply H, in_or_app; auto.
  - rewrite IHx by assumption. reflexivity.
  - rewrite IHx by assumption. reflexivity.
  - rewrite IHx by assumption. reflexivity.
  - rewrite !starting_syms. apply contracted_ext. intros f1 f2. rewrite IHx, value_agree; [reflexivity| |]; intros t Ht; apply H, in_or_app; auto.
  - cbv zeta. rewrite starting_syms, starting_cfg by (intros t Ht; apply H, Ht). apply lifted_ext. intros h. apply kdiff_proper. apply lifted_ext. apply IHx. exact H.
  - apply kadd_proper; [apply contracted_ext; intros f1 f2; apply H; left; reflexivity|apply IHx; intros t Ht; apply H; right; exact Ht].
  - apply ksub_proper; [apply contracted_ext; intros f1 f2; apply H; left; reflexivity|apply IHx; intros t Ht; apply H; right; exact Ht].
  - rewrite !starting_syms. apply contracted_ext. intros f1 f2. apply kmul_proper; [apply contracted_ext; intros f3 f4; apply H; left; reflexivity|apply IHx; intros t Ht; apply H; right; exact Ht].
Qed.
Lemma starting_comps x ss i idx : (forall t, In t (others x) -> conf' t = conf t /\ forall idx, keq (T' t idx) (T t idx)) ->
  keq (components_in conf' n xs g gi T' (starting d' s x) ss i idx) (components_in conf n xs g gi T (starting d s x) ss i idx).
Proof.
  intros H. unfold components_in, act. apply lsum_ext. intros ks _. apply kmul_proper; [reflexivity|]. apply starting_value, H.
Qed.
End Number.

Lemma starting_leaves {A : AlgOps} d s (x : @headed A) t : In t (leaves (starting d s x)) <-> t = d \/ In t (others x).
Proof.
  induction x; cbn [leaves starting others]; rewrite ?in_app_iff; cbn; rewrite ?in_app_iff; try tauto; intuition.
Qed.

(** *** Evaluation *)
Lemma skipn_less {X} (l : list X) : forall k z, In z (skipn (S k) l) -> In z (skipn k l).
Proof.
  induction l as [|y l IH]; intros [|k] z H; cbn [skipn] in *; auto. right. exact H.
Qed.

Section Head.
Context {A : AlgOps} {L : AlgLaws A} {D : DiffLaws A}.
Variables (n : nat) (m c : oid) (name : string) (xs : list string) (g gi : nat -> nat -> K).
Variables (conf : oid -> list Z) (T : oid -> list nat -> K).
Notation session w := (metric_session w n m c name xs g gi).
Notation known w := (known_results n xs g gi w m c name).
Notation opd w t i h := (operand w n m c g gi t i h).
Notation cv := (conv g gi (-1)%Z).
Notation comps := (components_in conf n xs g gi T).
Notation yields := (yields n xs g gi).
Notation raised t := (act n (map cv (conf t)) (T t)).

Lemma call_operand w t s i h : session w -> opd w t i h -> NoDup s -> calc_call t s w = (Ok (mkCalc (Some t) s RTensor), w).
Proof.
  intros HS O Ns. destruct (operand_obj n m c name xs g gi w t i h HS O) as (k & o & a & Hk & Nk & Hob & Mo & Ei & Ro & Sd & Co & (Ca & Ra & Va) & He & Eg).
  eapply calc_init_plain; [exact Hk|exact Nk|exact Hob|rewrite (get_default _ _ o c Hob Co), Ei; exact Eg|rewrite Ei; apply O| |exact Ns].
  rewrite Ei. symmetry. exact Ra.
Qed.

Lemma eval_headed_eval q w z w1 t s x : q w = (Ok z, w1) -> calc_call t s w1 = (Ok z, w1) -> session w -> session w1 -> plain_left x ->
  (forall y, In y (others x) -> exists i h, opd w y i h /\ opd w1 y i h) ->
  eval_headed q x w = eval (starting t s x) w1.
Proof.
  intros E1 E2 S0 S1. induction x as [|x IHx y|x IHx y|x IHx|k x IHx|k x IHx|x IHx y|a x IHx|t0 r x IHx|t0 r x IHx|t0 r x IHx]; intros Pl Ho; cbn [eval_headed starting eval plain_left others] in *;
    try (specialize (IHx Pl)); try (assert (Ho' : forall y, In y (others x) -> exists i h, opd w y i h /\ opd w1 y i h) by (intros y' Hy'; apply Ho; first [exact Hy'|right; exact Hy'|apply in_or_app; left; exact Hy']); specialize (IHx Ho')).
  - congruence.
  - unfold mbind at 1 3. rewrite IHx. reflexivity.
  - unfold mbind at 1 3. rewrite IHx. reflexivity.
  - unfold mbind. rewrite IHx. reflexivity.
  - unfold mbind. rewrite IHx. reflexivity.
  - unfold mbind. rewrite IHx. reflexivity.
  - unfold mbind at 1 3. rewrite IHx. reflexivity.
  - unfold PartialD, derivative. unfold mbind at 1 3. unfold mret. unfold mbind. rewrite IHx. reflexivity.
  - destruct Pl as [Nr Pl]. assert (IH := IHx Pl (fun y Hy => Ho y (or_intror Hy))). destruct (Ho t0 (or_introl eq_refl)) as (i & h & O0 & O1).
    rewrite (bind_ok _ _ _ _ _ (call_operand _ _ r _ _ S0 O0 Nr)), (bind_ok _ _ _ _ _ (call_operand _ _ r _ _ S1 O1 Nr)). unfold mbind. rewrite IH. reflexivity.
  - destruct Pl as [Nr Pl]. assert (IH := IHx Pl (fun y Hy => Ho y (or_intror Hy))). destruct (Ho t0 (or_introl eq_refl)) as (i & h & O0 & O1).
    rewrite (bind_ok _ _ _ _ _ (call_operand _ _ r _ _ S0 O0 Nr)), (bind_ok _ _ _ _ _ (call_operand _ _ r _ _ S1 O1 Nr)). unfold mbind. rewrite IH. reflexivity.
  - destruct Pl as [Nr Pl]. assert (IH := IHx Pl (fun y Hy => Ho y (or_intror Hy))). destruct (Ho t0 (or_introl eq_refl)) as (i & h & O0 & O1).
    rewrite (bind_ok _ _ _ _ _ (call_operand _ _ r _ _ S0 O0 Nr)), (bind_ok _ _ _ _ _ (call_operand _ _ r _ _ S1 O1 Nr)). unfold mbind. rewrite IH. reflexivity.
Qed.

Lemma result_operand w z s i a f : session w -> result_is w z s m c i a -> valid_cfg i -> holds n (length i) a f ->
  exists t, z = mkCalc (Some t) s RTensor /\ opd w t i f /\ named w "TEMP" t /\ (NoDup s -> length s = length i -> calc_call t s w = (Ok z, w)).
Proof.
  intros HS (R & Es & t & o & Tz & Ho & Hk & It & En & Mo & Co & Ei & Ro & Cs) Vi Ha.
  assert (Sd : stored_default o c a).
  { split; [exact Co|]. exists [(i, a)]. rewrite Cs, Ei. split; [cbn; rewrite Nat.eqb_refl; reflexivity|].
    cbn [dget]. rewrite cfg_eqb_refl. reflexivity. }
  assert (Ez : z = mkCalc (Some t) s RTensor) by (destruct z; cbn in *; congruence).
  exists t. split; [exact Ez|].
  assert (O : opd w t i f).
  { split; [|split; [|split; [exact Vi|split]]].
    - exists CTensor, o, a. repeat (split; [first [assumption|discriminate]|]). exact Ha.
    - intros o' dd j b Ho' Hd Hb. rewrite Ho in Ho'. injection Ho' as <-. rewrite Cs in Hd. cbn in Hd. rewrite Nat.eqb_refl in Hd. injection Hd as <-.
      cbn in Hb. destruct (cfg_eqb j i) eqn:Ej; [|discriminate]. apply cfg_eqb_spec in Ej. subst j. injection Hb as <-.
      split; [exact Vi|]. split; [reflexivity|]. destruct Ha as (Ca & Ra & Va). split; [exact Ca|]. split; [exact Ra|].
      intros idx Hx. rewrite (Va idx Hx). symmetry. apply converted_self. exact Hx.
    - rewrite Hk. discriminate.
    - intros o' Ho'. rewrite Ho in Ho'. injection Ho' as <-. intros [_ H]. apply (H [(i, a)] []). exact Cs. }
  split; [exact O|]. split; [exists o; auto|].
  intros Ns _. rewrite Ez. eapply call_operand; eassumption.
Qed.

Section From.
Variables (q : M calc) (names : list string) (s : list string) (i : list Z) (f : list nat -> K) (w : world) (d : oid) (x : headed).
Hypothesis HS : session w.
Hypothesis Hq : yields q m c name names s i f w.
Hypothesis Ns : NoDup s.
Hypothesis Ls : length s = length i.
Hypothesis Vi : valid_cfg i.
Hypothesis Hd : conf d = i.
Hypothesis Td : forall idx, in_range n (length i) idx -> keq (raised d idx) (f idx).
Hypothesis W : well_formed conf (starting d s x).
Hypothesis Pl : plain_left x.
Hypothesis Hl : forall t, In t (others x) -> ~ named w "TEMP" t /\ opd w t (conf t) (raised t).

Lemma head_start : exists t w1 conf' T',
  eval_headed q x w = eval (starting t s x) w1 /\ session w1 /\ known w1 /\ only_adds ("TEMP"%string :: names) w w1 /\ named w1 "TEMP" t /\
  well_formed conf' (starting t s x) /\ (forall y, In y (leaves (starting t s x)) -> opd w1 y (conf' y) (act n (map cv (conf' y)) (T' y))) /\
  free_syms (starting t s x) = free_syms (starting d s x) /\ free_cfg conf' (starting t s x) = free_cfg conf (starting d s x) /\
  forall ss j idx, keq (components_in conf' n xs g gi T' (starting t s x) ss j idx) (comps (starting d s x) ss j idx).
Proof.
  destruct Hq as (z & w1 & a & E & R & Ha & Ad & S1 & K1).
  destruct (result_operand w1 z s i a f S1 R Vi Ha) as (t & Ez & Ot & Nt & Ec). specialize (Ec Ns Ls).
  set (conf' := fun y => if y =? t then i else conf y). set (T' := fun y => if y =? t then T d else T y).
  assert (Hkeep : forall y, In y (others x) -> y <> t /\ opd w1 y (conf y) (raised y)).
  { intros y Hy. destruct (Hl y Hy) as [Ny Oy].
    assert (Hob : exists oy, obj_of w y = Some oy) by (destruct Oy as ((k & oy & b & _ & _ & H & _) & _); eauto). destruct Hob as [oy Hoy].
    assert (Hn : o_name oy <> "TEMP"%string) by (intros En; apply Ny; exists oy; auto).
    destruct (proj1 Ad y oy Hoy Hn) as (A1 & A2 & A3). split.
    - intros ->. destruct Nt as (o' & Ho' & En'). rewrite A1 in Ho'. injection Ho' as <-. contradiction.
    - eapply operand_same; [exact A2| |exact Oy]. congruence. }
  assert (Hag : forall y, In y (others x) -> conf' y = conf y /\ forall idx, keq (T' y idx) (T y idx)).
  { intros y Hy. destruct (Hkeep y Hy) as [Ny _]. unfold conf', T'. destruct (Nat.eqb_spec y t); [contradiction|]. split; reflexivity. }
  assert (Hc1 : conf' t = conf d) by (unfold conf'; rewrite Nat.eqb_refl; symmetry; exact Hd).
  assert (Hc2 : forall idx, keq (T' t idx) (T d idx)) by (intros idx; unfold T'; rewrite Nat.eqb_refl; reflexivity).
  exists t, w1, conf', T'. split; [eapply eval_headed_eval; [eassumption..|]; intros y Hy; exists (conf y), (raised y); split; [apply Hl, Hy|apply Hkeep, Hy]|]. split; [exact S1|]. split; [exact K1|]. split; [exact Ad|]. split; [exact Nt|].
  split; [eapply starting_wf; [exact Hc1|intros y Hy; apply Hag, Hy|exact W]|]. split.
  - intros y Hy. apply starting_leaves in Hy as [->|Hy].
    + eapply operand_ext; [|rewrite Hc1, Hd; exact Ot]. intros idx Hx. rewrite Hc1, Hd in Hx. rewrite <- (Td idx Hx). rewrite Hc1. unfold T'. rewrite Nat.eqb_refl. reflexivity.
    + destruct (Hkeep y Hy) as [Ny Oy]. unfold conf', T'. destruct (Nat.eqb_spec y t); [contradiction|exact Oy].
  - split; [apply starting_syms|]. split; [apply starting_cfg; [exact Hc1|intros y Hy; apply Hag, Hy]|].
    intros ss j idx. apply starting_comps; [exact Hc1|exact Hc2|exact Hag].
Qed.

Theorem head_value : exists t w', eval_headed q x w = (Ok (mkCalc (Some t) (free_syms (starting d s x)) RTensor), w') /\
  opd w' t (free_cfg conf (starting d s x)) (comps (starting d s x) (free_syms (starting d s x)) (free_cfg conf (starting d s x))) /\
  session w' /\ (forall y j h o, obj_of w y = Some o -> o_name o <> "TEMP"%string -> opd w y j h -> opd w' y j h) /\
  only_adds_and_grows (others x) ("TEMP"%string :: names) w w'.
Proof.
  destruct head_start as (t1 & w1 & conf' & T' & E & S1 & K1 & Ad & Nt & W' & Hl' & Es & Ec & Ev).
  destruct (eval_formula n m c name xs g gi conf' T' (starting t1 s x) w1 S1 W' Hl') as (t & w' & E' & Op & S' & Kp & Fr).
  exists t, w'. split; [rewrite E, E', Es; reflexivity|]. split; [|split; [exact S'|split]].
  - rewrite Es, Ec in Op. eapply operand_ext; [|exact Op]. intros idx _. apply Ev.
  - intros y j h o Ho No Oy. destruct (proj1 Ad y o Ho No) as (A1 & A2 & A3). apply Kp. eapply operand_same; [exact A2| |exact Oy]. congruence.
  - destruct Fr as [F1 F2]. split.
    + intros j o Ho No. destruct (proj1 Ad j o Ho No) as (A1 & A2 & A3). destruct (F1 j o A1) as (B1 & B2 & o' & B3 & B4 & B5).
      split; [congruence|]. split; [auto|]. exists o'. split; [exact B3|]. split; [|exact B5]. intros Hj. apply B4. intros Hj'. apply starting_leaves in Hj' as [->|Hj']; [|contradiction].
      destruct Nt as (o1 & H1 & H2). congruence.
    + intros j Hj. destruct (F2 j Hj) as [Hj1|Hj1]; [|right; exists "TEMP"%string; split; [left; reflexivity|exact Hj1]].
      destruct (proj2 Ad j Hj1) as [[Hj2 _]|(nm & Hn & Hj2)]; [auto|]. right. exists nm. split; [exact Hn|].
      destruct Hj2 as (o & Ho & En). destruct (F1 j o Ho) as (_ & _ & o' & Ho' & _ & Sa & _). exists o'. split; [exact Ho'|]. destruct Sa as [-> _]. exact En.
Qed.

Theorem head_calc nm sy req i' : nm <> "TEMP"%string -> req = [] \/ Permutation (free_syms (starting d s x)) req ->
  let order := match req with [] => free_syms (starting d s x) | _ => req end in
  same_indices (free_syms (starting d s x)) (free_cfg conf (starting d s x)) order i' ->
  exists t w' o, (let! z := eval_headed q x in run_calc z nm sy req) w = (Ok t, w') /\ In t (insts w') /\
    (forall o0, obj_of w t = Some o0 -> o_name o0 = "TEMP"%string) /\
    obj_of w' t = Some o /\ o_name o = nm /\ o_symbol o = sy /\ cls_of w' t = Some CTensor /\
    opd w' t i' (comps (starting d s x) order i') /\ session w' /\
    (forall y j h o, obj_of w y = Some o -> o_name o <> "TEMP"%string -> opd w y j h -> opd w' y j h) /\
    only_adds_and_grows (others x) ("TEMP"%string :: nm :: names) w w'.
Proof.
  intros Hnm. destruct head_start as (t1 & w1 & conf' & T' & E & S1 & K1 & Ad & Nt & W' & Hl' & Es & Ec & Ev). rewrite <- Es, <- Ec. intros Hreq order Hi.
  destruct (calc_core n m c name xs g gi conf' T' (starting t1 s x) nm sy req i' w1 S1 W' Hl' Hnm Hreq Hi) as (t & w' & o & E' & Nw & It & Ho & En & Ey & Hk & Op & S' & Kp & (F1 & F2) & _ & _ & F3).
  exists t, w', o. split; [unfold mbind in *; rewrite E; exact E'|]. split; [exact It|]. split.
  { intros o0 H0. destruct (string_dec (o_name o0) "TEMP") as [E0|N0]; [exact E0|]. destruct (proj1 Ad t o0 H0 N0) as (A1 & _). congruence. }
  do 4 (split; [assumption|]). split; [|split; [exact S'|split]].
  - eapply operand_ext; [|exact Op]. intros idx _. apply Ev.
  - intros y j h oy Hoy No Oy. destruct (proj1 Ad y oy Hoy No) as (A1 & A2 & A3). eapply Kp; [exact A1|exact No|]. eapply operand_same; [exact A2| |exact Oy]. congruence.
  - split.
    + intros j oj Hoj No. destruct (proj1 Ad j oj Hoj No) as (A1 & A2 & A3). destruct (F1 j oj A1 No) as (B1 & B2 & o' & B3 & B4 & B5).
      split; [congruence|]. split; [auto|]. exists o'. split; [exact B3|]. split; [|exact B5]. intros Hj. apply B4. intros Hj'. apply starting_leaves in Hj' as [->|Hj']; [|contradiction].
      destruct Nt as (o1 & H1 & H2). congruence.
    + intros j Hj. destruct (F2 j Hj) as [Hj1|[->|Hj1]].
      * destruct (proj2 Ad j Hj1) as [[Hj2 _]|(nm' & Hn & (oj & Hoj & Ej))]; [auto|]. right.
        destruct (string_dec nm' "TEMP") as [->|Nn].
        -- destruct (obj_of w' j) as [o''|] eqn:E''; [|exfalso; destruct S' as (_ & [[_ R] _] & _); exact (R j Hj E'')].
           destruct (F3 j o'' Hj E'') as [->|[Et|(o0 & H0 & Sa)]]; [exists nm; split; [right; left; reflexivity|exists o; auto]| |];
             exists "TEMP"%string; (split; [left; reflexivity|]); exists o''; (split; [exact E''|]); [exact Et|]. destruct Sa as [-> _]. congruence.
        -- exists nm'. split; [destruct Hn as [Hn|Hn]; [congruence|right; right; exact Hn]|].
           destruct (F1 j oj Hoj) as (_ & _ & o' & Ho' & _ & Sa & _); [congruence|]. exists o'. split; [exact Ho'|]. destruct Sa as [-> _]. exact Ej.
      * right. exists nm. split; [right; left; reflexivity|]. exists o; auto.
      * right. exists "TEMP"%string. split; [left; reflexivity|exact Hj1].
Qed.
End From.

(** *** Covariant derivatives *)
Notation Gam := (SpecCurv.Gam n xs g gi).
Notation chr := [(name ++ " Christoffel")%string].
Lemma lowers i f : inverse_fun n g gi -> valid_cfg i ->
  exists F, forall idx, in_range n (length i) idx -> keq (act n (map cv i) F idx) (f idx).
Proof.
  intros Inv Vi. set (low := repeat (-1)%Z (length i)). exists (converted n g gi i low f). intros idx Hx.
  assert (Vl : valid_cfg low) by (apply Forall_forall; intros z Hz; apply repeat_spec in Hz; auto).
  assert (El : map cv i = map (fun st => conv g gi (fst st) (snd st)) (combine low i)).
  { unfold low. clear. induction i as [|z i IH]; [reflexivity|]. cbn. rewrite IH. reflexivity. }
  rewrite El. rewrite (converted_comp n g gi i low i f idx Inv Vi Vl Vi (repeat_length _ _) eq_refl Hx). apply converted_self, Hx.
Qed.

Theorem gradient_first letters a t syms i h w d x : session w -> known w -> tensor_value w n m c t i h -> ~ named w "TEMP" t -> valid_cfg i ->
  NoDup (a :: syms) -> length syms = length i -> free_letters letters (a :: syms) ->
  conf d = (-1 :: i)%Z -> (forall k idx, k < n -> in_range n (length i) idx -> keq (raised d (k :: idx)) (covariant_of n (cx xs) Gam i h k idx)) ->
  well_formed conf (starting d (a :: syms) x) -> plain_left x -> (forall t, In t (others x) -> ~ named w "TEMP" t /\ opd w t (conf t) (raised t)) ->
  forall nm sy req i', nm <> "TEMP"%string -> req = [] \/ Permutation (free_syms (starting d (a :: syms) x)) req ->
  let order := match req with [] => free_syms (starting d (a :: syms) x) | _ => req end in
  same_indices (free_syms (starting d (a :: syms) x)) (free_cfg conf (starting d (a :: syms) x)) order i' ->
  exists t' w' o, (let! z := eval_headed (derivative_of letters a t syms) x in run_calc z nm sy req) w = (Ok t', w') /\ In t' (insts w') /\
    (forall o0, obj_of w t' = Some o0 -> o_name o0 = "TEMP"%string) /\
    obj_of w' t' = Some o /\ o_name o = nm /\ o_symbol o = sy /\ cls_of w' t' = Some CTensor /\
    opd w' t' i' (comps (starting d (a :: syms) x) order i') /\ session w' /\
    (forall y j h o, obj_of w y = Some o -> o_name o <> "TEMP"%string -> opd w y j h -> opd w' y j h) /\
    only_adds_and_grows (others x) ("TEMP"%string :: nm :: chr) w w'.
Proof.
  intros HS HK HV Nt Vi Ns Ls Hl Hd Td W Pl Ho nm sy req i'.
  eapply (head_calc (derivative_of letters a t syms) chr (a :: syms) (-1 :: i)%Z _ w d x); [exact HS|eapply gradient_value_with; eassumption|exact Ns|cbn; congruence| |exact Hd| |exact W|exact Pl|exact Ho].
  - apply Forall_cons; [auto|exact Vi].
  - intros idx Hx. destruct idx as [|k idx]; [destruct Hx; discriminate|]. cbn [nth tl]. destruct Hx as [Lx Rx]. inversion Rx; subst. cbn in Lx. apply Td; [assumption|]. split; [lia|assumption].
Qed.

Theorem divergence_first letters a t l1 l2 i h w d x : session w -> known w -> tensor_value w n m c t i h -> ~ named w "TEMP" t -> valid_cfg i ->
  NoDup (l1 ++ a :: l2) -> length (l1 ++ a :: l2) = length i -> free_letters letters (l1 ++ a :: l2) ->
  conf d = firstn (length l1) i ++ skipn (S (length l1)) i ->
  (forall idx, in_range n (length (l1 ++ l2)) idx -> keq (raised d idx) (divergence_of n (cx xs) Gam gi i h (length l1) idx)) ->
  well_formed conf (starting d (l1 ++ l2) x) -> plain_left x -> (forall t, In t (others x) -> ~ named w "TEMP" t /\ opd w t (conf t) (raised t)) ->
  forall nm sy req i', nm <> "TEMP"%string -> req = [] \/ Permutation (free_syms (starting d (l1 ++ l2) x)) req ->
  let order := match req with [] => free_syms (starting d (l1 ++ l2) x) | _ => req end in
  same_indices (free_syms (starting d (l1 ++ l2) x)) (free_cfg conf (starting d (l1 ++ l2) x)) order i' ->
  exists t' w' o, (let! z := eval_headed (derivative_of letters a t (l1 ++ a :: l2)) x in run_calc z nm sy req) w = (Ok t', w') /\ In t' (insts w') /\
    (forall o0, obj_of w t' = Some o0 -> o_name o0 = "TEMP"%string) /\
    obj_of w' t' = Some o /\ o_name o = nm /\ o_symbol o = sy /\ cls_of w' t' = Some CTensor /\
    opd w' t' i' (comps (starting d (l1 ++ l2) x) order i') /\ session w' /\
    (forall y j h o, obj_of w y = Some o -> o_name o <> "TEMP"%string -> opd w y j h -> opd w' y j h) /\
    only_adds_and_grows (others x) ("TEMP"%string :: nm :: chr) w w'.
Proof.
  intros HS HK HV Nt Vi Ns Ls Hl Hd Td W Pl Ho nm sy req i'.
  assert (Ln : length (l1 ++ l2) = length (firstn (length l1) i ++ skipn (S (length l1)) i)).
  { rewrite !app_length, firstn_length, skipn_length. rewrite app_length in Ls. cbn in Ls. lia. }
  eapply (head_calc (derivative_of letters a t (l1 ++ a :: l2)) chr (l1 ++ l2) (firstn (length l1) i ++ skipn (S (length l1)) i) _ w d x);
    [exact HS|eapply divergence_value_with; eassumption|eapply NoDup_remove_1, Ns|exact Ln| |exact Hd| |exact W|exact Pl|exact Ho].
  - apply Forall_forall. intros z Hz. apply (proj1 (Forall_forall _ _) Vi). rewrite <- (firstn_skipn (length l1) i).
    apply in_app_or in Hz as [Hz|Hz]; apply in_or_app; [auto|right]. apply skipn_less, Hz.
  - intros idx Hx. apply Td. rewrite Ln. exact Hx.
Qed.
End Head.
