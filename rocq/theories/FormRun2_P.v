(** Every formula evaluates to its value. *)
From Coq Require Import Permutation Bool.
From Verif Require Import Alg Alg_P Arr Arr_P Spec UtilsM Utils_P Arr2_P Act_P RL_P Tensor_P TensorM WorldM SpecWorld World_P Registry_P CalcM SpecCalc Keep_P Calc_P Calc2_P Calc3_P Calc4_P Trace_P Run_P CurvM SpecCurv SpecForm Form_P Form2_P CurvRun_P Norm_P Scalar_P Along_P Label_P FormVal_P FormVal2_P FormRun_P.
Local Open Scope nat_scope.

Lemma opposite_ex s1 i1 s2 i2 : NoDup s1 -> NoDup s2 -> length i1 = length s1 -> length i2 = length s2 -> valid_cfg i1 -> valid_cfg i2 ->
  exists i2', opposite s1 i1 s2 i2 i2' /\ valid_cfg i2'.
Proof.
  intros N1 N2 L1 L2 V1 V2. exists (map (fun y => if in_dec string_dec y s1 then (- zof s1 i1 y)%Z else zof s2 i2 y) s2). split.
  - split; [apply map_length|]. intros j x z Hx Hz. rewrite nth_error_map, Hx in Hz. cbn in Hz. injection Hz as <-. assert (Hx2 := nth_error_In _ _ Hx). split.
    + intros p z1 Hp Hz1. assert (Hx1 := nth_error_In _ _ Hp). destruct (in_dec string_dec x s1) as [_|N]; [|contradiction]. f_equal.
      unfold zof. destruct (spos_in x s1 Hx1) as (q & E & Hq). rewrite E. apply spos_some in E as [E _].
      assert (q = p) by (eapply NoDup_nth_error; [exact N1|apply nth_error_Some; congruence|congruence]). subst q. apply nth_error_nth, Hz1.
    + intros N. destruct (in_dec string_dec x s1) as [Hi|_]; [contradiction|]. unfold zof. destruct (spos_in x s2 Hx2) as (q & E & Hq). rewrite E. apply spos_some in E as [E _].
      assert (q = j) by (eapply NoDup_nth_error; [exact N2|apply nth_error_Some; congruence|congruence]). subst q. apply nth_error_nth'. lia.
  - apply Forall_forall. intros z Hz. apply in_map_iff in Hz as (y & <- & Hy). destruct (in_dec string_dec y s1) as [Hi|_].
    + destruct (zof_valid s1 i1 y V1 L1 Hi) as [-> | ->]; cbn; auto.
    + apply zof_valid; assumption.
Qed.

Section Lifted.
Context {A : AlgOps} {L : AlgLaws A}.
Add Ring Kring : kring (setoid keq_equiv kring_ext).
Variables (n : nat) (g gi : nat -> nat -> K).
Notation cv := (conv g gi (-1)%Z).
Notation lifts := (lifted n).
Notation within s := (fun x : string => In x s).
Local Open Scope K_scope.

Lemma assign_inside s ks f f' x : In x s -> assign s ks f x = assign s ks f' x.
Proof. intros Hx. unfold assign. destruct (index_of String.eqb x s) eqn:E; [reflexivity|]. apply spos_none in E. contradiction. Qed.
Lemma lifted_dep s Ms F : dep (within s) F -> dep (within s) (lifts s Ms F).
Proof.
  intros H f f' E. unfold lifted. rewrite (map_ext_in f f' s E). unfold act. apply lsum_ext. intros ks _. apply kmul_proper; [reflexivity|].
  apply H. intros x Hx. apply assign_inside, Hx.
Qed.
Lemma clip s F F' : (1 <= n)%nat -> dep (within s) F -> dep (within s) F' -> (forall f, ok n f -> F f == F' f) -> forall f, (forall y, In y s -> (f y < n)%nat) -> F f == F' f.
Proof.
  intros Hn HF HF' H f Hf. set (f' := fun x => if (f x <? n)%nat then f x else 0%nat).
  assert (E : forall x, In x s -> f x = f' x). { intros x Hx. unfold f'. destruct (Nat.ltb_spec (f x) n); [reflexivity|]. specialize (Hf x Hx). lia. }
  rewrite (HF f f' E), (HF' f f' E). apply H. intros x. unfold f'. destruct (Nat.ltb_spec (f x) n); lia.
Qed.
Lemma map_dep (h : list nat -> K) s : dep (within s) (fun f => h (map f s)).
Proof. intros f f' E. rewrite (map_ext_in f f' s E). reflexivity. Qed.

Lemma lifted_add s Ms F F' f : lifts s Ms (fun f => F f + F' f) f == lifts s Ms F f + lifts s Ms F' f.
Proof. unfold lifted, act. rewrite <- lsum_add. apply lsum_ext. intros ks _. ring. Qed.
Lemma lifted_scale s Ms k F f : lifts s Ms (fun f => k * F f) f == k * lifts s Ms F f.
Proof. unfold lifted, act. rewrite <- lsum_scale. apply lsum_ext. intros ks _. ring. Qed.
Lemma lifted_opp s Ms F f : lifts s Ms (fun f => - F f) f == - lifts s Ms F f.
Proof.
  transitivity (lifts s Ms (fun f => (- k1) * F f) f).
  - unfold lifted, act. apply lsum_ext. intros ks _. ring.
  - rewrite lifted_scale. ring.
Qed.
Lemma lifted_sub s Ms F F' f : lifts s Ms (fun f => F f - F' f) f == lifts s Ms F f + - lifts s Ms F' f.
Proof.
  rewrite <- lifted_opp, <- lifted_add. unfold lifted, act. apply lsum_ext. intros ks _. ring.
Qed.
Lemma lifted_ext s Ms F F' f : (forall h, F h == F' h) -> lifts s Ms F f == lifts s Ms F' f.
Proof. intros H. unfold lifted, act. apply lsum_ext. intros ks _. rewrite H. reflexivity. Qed.

Hypothesis Hn : (1 <= n)%nat.
Hypothesis Hsy : symmetric_fun n g.
Hypothesis Hin : inverse_fun n g gi.

Lemma cv_combine r i : length i = r -> map (fun st => conv g gi (fst st) (snd st)) (combine (repeat (-1)%Z r) i) = map cv i.
Proof. revert r. induction i as [|z i IH]; intros r Hl; subst r; [reflexivity|]. cbn [length repeat combine map fst snd]. rewrite IH by reflexivity. reflexivity. Qed.
(** A tensor read in another configuration *)
Lemma conv_lift s i j V h f : NoDup s -> length i = length s -> length j = length s -> valid_cfg i -> valid_cfg j -> dep (within s) V ->
  (forall f, (forall y, In y s -> (f y < n)%nat) -> h (map f s) == lifts s (map cv i) V f) -> (forall y, In y s -> (f y < n)%nat) ->
  converted n g gi i j h (map f s) == lifts s (map cv j) V f.
Proof.
  intros Nd Li Lj Vi Vj DV Hh Hf. set (W := fun ks => V (assign s ks f)).
  assert (HW : forall ks, in_range n (length s) ks -> h ks == act n (map cv i) W ks).
  { intros ks [Lk Hk]. assert (Em : map (assign s ks f) s = ks) by (apply assign_map; [exact Nd|exact Lk]). rewrite <- Em at 1. rewrite Hh.
    - unfold lifted. rewrite Em. unfold act. apply lsum_ext. intros ls _. apply kmul_proper; [reflexivity|]. apply DV. intros x Hx. apply assign_inside, Hx.
    - intros y Hy. apply (proj1 (Forall_forall _ _) Hk). assert (Hi := in_map (assign s ks f) s y Hy). rewrite Em in Hi. exact Hi. }
  assert (Hr : in_range n (length s) (map f s)) by (apply in_range_map, Hf).
  assert (Vr : valid_cfg (repeat (-1)%Z (length s))) by (apply Forall_forall; intros z Hz; apply repeat_spec in Hz; auto).
  assert (C := converted_comp n g gi (repeat (-1)%Z (length s)) i j W (map f s) Hin Vr Vi Vj). rewrite !repeat_length in C. specialize (C Li Lj Hr).
  unfold converted in C at 1 2. rewrite !cv_combine in C by assumption. unfold lifted. fold W. rewrite <- C. unfold converted.
  apply act_ext; [rewrite !map_length, combine_length; lia|apply Hr|]. intros ks Lk Hk. apply HW. split; [rewrite Lk; apply map_length|exact Hk].
Qed.
(** The same tensor with its indices in another order *)
Lemma lifted_perm s1 i1 s2 i2 V f : NoDup s1 -> NoDup s2 -> length i1 = length s1 -> length i2 = length s2 -> Permutation s1 s2 ->
  (forall y, In y s2 -> zof s2 i2 y = zof s1 i1 y) -> pure V -> ok n f -> lifts s2 (map cv i2) V f == lifts s1 (map cv i1) V f.
Proof.
  intros N1 N2 L1 L2 Hp Hz P Of. rewrite !lifted_alongs by (try rewrite map_length; assumption). rewrite !combine_zof by assumption.
  rewrite (map_ext_in (fun y => (y, cv (zof s2 i2 y))) (fun y => (y, cv (zof s1 i1 y))) s2) by (intros y Hy; rewrite Hz by exact Hy; reflexivity).
  apply (alongs_perm n String.eqb String.eqb_spec); [exact Of|exact P|rewrite map_map, map_id; exact N2|]. apply Permutation_map, Permutation_sym, Hp.
Qed.
(** Lowering and raising *)
Lemma lifted_back a s i P f : NoDup (a :: s) -> length i = length s -> valid_cfg i -> pure P -> ok n f ->
  lifts (a :: s) (map cv (-1 :: i)%Z) (lifts s (map (fun z => conv g gi z (-1)%Z) i) P) f == P f.
Proof.
  intros Nd Li Vi HP Of. assert (Ns : NoDup s) by (inversion Nd; assumption).
  assert (P1 : pure (lifts s (map (fun z => conv g gi z (-1)%Z) i) P)) by (apply lifted_pure; [exact Ns|rewrite map_length; exact Li|exact HP]).
  rewrite lifted_alongs; [|exact Nd|rewrite map_length; cbn; congruence|exact P1|exact Of]. cbn [map combine alongs].
  rewrite (along_id n String.eqb String.eqb_spec); [|exact Of|apply (alongs_pure n String.eqb), P1|intros x y _ _; reflexivity].
  transitivity (alongs n String.eqb (combine s (map cv i)) (alongs n String.eqb (combine s (map (fun z => conv g gi z (-1)%Z) i)) P) f).
  { apply (alongs_eqn n String.eqb String.eqb_spec); [exact Of|]. intros h Oh. apply lifted_alongs; [exact Ns|rewrite map_length; exact Li|exact HP|exact Oh]. }
  rewrite (alongs_comp n String.eqb String.eqb_spec) by (try rewrite map_length; assumption).
  apply (alongs_id n String.eqb String.eqb_spec); [exact Of|exact HP|]. apply Forall_forall. intros [y M] Hm. cbn [snd].
  apply in_combine_r in Hm. apply in_map_iff in Hm as ([M1 M2] & <- & Hm). cbn [fst snd].
  assert (Hz : exists z, (z = 1 \/ z = -1)%Z /\ M1 = cv z /\ M2 = conv g gi z (-1)%Z).
  { clear - Hm Vi. induction Vi as [|z i Hz Vi IH]; [destruct Hm|]. cbn [map combine] in Hm. destruct Hm as [E|Hm]; [injection E as <- <-; exists z; auto|auto]. }
  destruct Hz as (z & Hz & -> & ->). assert (C := conv_comp n g gi z (-1)%Z z Hin Hz (or_intror eq_refl) Hz).
  intros x y' Hx Hy'. rewrite (C x y' Hx Hy'). unfold conv. rewrite Z.eqb_refl. reflexivity.
Qed.
End Lifted.

Section Eval.
Context {A : AlgOps} {L : AlgLaws A} {D : DiffLaws A}.
Add Ring Kring2 : kring (setoid keq_equiv kring_ext).
Variables (n : nat) (m c : oid) (name : string) (xs : list string) (g gi : nat -> nat -> K).
Variables (N0 : nat) (Lv : oid -> Prop) (conf : oid -> list Z) (T : oid -> list nat -> K).
Notation session w := (metric_session w n m c name xs g gi).
Notation opd w t i h := (operand w n m c g gi t i h).
Notation cv := (conv g gi (-1)%Z).
Notation tens := (tens n m c g gi N0 Lv).
Notation steps := (steps n m c name xs g gi N0 Lv).
Notation ext := (ext n m c g gi N0 Lv).
Notation base_ok := (base_ok n m c name xs g gi N0).
Notation val := (value conf n xs g gi T).
Notation cfg := (free_cfg conf).
Notation raised t := (act n (map cv (conf t)) (T t)).

Lemma session_n w : session w -> 1 <= n.
Proof. intros H. apply H. Qed.
Lemma session_sym w : session w -> symmetric_fun n g.
Proof. intros H. apply H. Qed.
Lemma session_inv w : session w -> inverse_fun n g gi.
Proof. intros H. apply H. Qed.
Lemma session_tables w : session w -> exists om G, obj_of w m = Some om /\ metric_tables n om c G /\
  forall z0 z1 k l, valid_cfg [z0; z1] -> k < n -> l < n -> keq (aget (G (- z0)%Z (- z1)%Z) [k; l]) (gmat g gi z0 z1 k l).
Proof.
  intros (_ & _ & _ & _ & _ & _ & _ & _ & _ & _ & _ & _ & _ & om & G & Hom & _ & _ & _ & _ & Tab & Gv). exists om, G. split; [exact Hom|]. split; [exact Tab|].
  intros z0 z1 k l V Hk Hl. destruct (Gv k l Hk Hl) as (E1 & E2 & E3 & E4). inversion V as [|? ? V0 V']; subst. inversion V' as [|? ? V1 _]; subst.
  unfold gmat. destruct V0 as [-> | ->], V1 as [-> | ->]; cbn [Z.opp Z.eqb Pos.eqb]; assumption.
Qed.

Lemma steps_call w t s h : base_ok w -> mine N0 Lv t -> opd w t (conf t) h -> (forall idx, in_range n (length (conf t)) idx -> keq (h idx) (raised t idx)) ->
  length s = length (conf t) -> (forall x, count String.eqb x s <= 2) ->
  steps w (calc_call t s) (fun z w' => tens w' z (free_syms (FTensor t s)) (cfg (FTensor t s)) (lifted n (free_syms (FTensor t s)) (map cv (cfg (FTensor t s))) (val (FTensor t s)))).
Proof.
  intros [HS HN] Ht Ho Hraise Ls Hc. set (i := conf t) in *.
  destruct (operand_obj n m c name xs g gi w t i h HS Ho) as (k & o & a & Hk & Nk & Hob & Mo & Ei & Ro & Sd & Co & (Ca & Ra & Va) & He & Eg).
  destruct (session_tables w HS) as (om & G & Hom & Tab & Gv). assert (Vi : valid_cfg i) by apply Ho.
  set (N1 := length (heap w)).
  destruct (trace_full (fun w' => (session w' /\ ext w w') /\ N1 <= length (heap w') /\
     forall j oj, N1 <= j -> obj_of w' j = Some oj -> cls_of w' j = Some CTensor /\ exists sy i' r, oj = tobj "TEMP" sy i' c m r) (fun t' => N1 <= t') w t k o m om c n G a s)
    as (Dl & z & w' & t' & o' & b & E & (((S' & X') & HN' & Hnew) & HD') & (k' & Hk' & Nk') & Nd & HD & Ez & Ho' & Mo' & Ei' & Ro' & Sd' & Cb & Rb & Vb); try assumption; try congruence; try apply HS.
  - intros w1 sy i' r [[S1 X1] [HN1 Hnew]]. split; [split; [apply session_fresh, S1|eapply ext_trans; [exact X1|apply (ext_fresh n m c name xs), S1]]|].
    split; [cbn [fresh_world heap]; rewrite app_length; lia|]. intros j oj Hj Hoj. rewrite obj_of_fresh in Hoj. destruct (Nat.eqb_spec j (length (heap w1))) as [->|N].
    + injection Hoj as <-. split; [apply cls_fresh_new|eauto].
    + rewrite cls_of_fresh by exact N. apply (Hnew j oj Hj Hoj).
  - intros w1 (_ & H & _). exact H.
  - split; [split; [exact HS|apply ext_refl]|]. split; [unfold N1; lia|]. intros j oj Hj Hoj. apply obj_of_lt in Hoj. unfold N1 in Hj. lia.
  - exists z, w'. split; [exact E|]. split; [exact S'|]. split; [exact X'|].
    rewrite Ei in Ei', Vb.
    assert (Hsame : forall x, In x Dl <-> In x (repeated s)) by (intros x; rewrite HD, repeated_spec; reflexivity).
    assert (Ew : without s Dl = free_syms (FTensor t s)) by (cbn [free_syms]; apply without_same, Hsame).
    assert (Ec : indices_without s i Dl = cfg (FTensor t s)) by (cbn [free_cfg]; apply indices_without_same, Hsame).
    assert (Wf : well_formed conf (FTensor t s)) by (split; assumption).
    assert (Nf := FormVal2_P.free_nodup n conf T _ Wf). assert (Lf := free_length n conf T _ Wf).
    assert (Vf : valid_cfg (cfg (FTensor t s))) by (apply free_valid; intros t0 [<-|[]]; exact Vi).
    assert (Hb : forall f, (forall y, In y (free_syms (FTensor t s)) -> f y < n) ->
      keq (aget b (map f (free_syms (FTensor t s)))) (lifted n (free_syms (FTensor t s)) (map cv (cfg (FTensor t s))) (val (FTensor t s)) f)).
    { apply clip; [apply (session_n w HS)|apply (map_dep (aget b))|apply lifted_dep, (value_dep n g gi conf xs T _ Wf)|].
      intros f Of. rewrite <- Ew, Vb by (intros x _; apply Of).
      rewrite <- Ec. cbn [value]. rewrite <- (trace_value n g gi (session_sym w HS) (session_inv w HS) s i Dl G (T t) f Hc (eq_sym Ls) Vi Nd HD Of Gv).
      apply lsum_ext. intros ks Hks. apply lsum_ext. intros ls Hls. apply kmul_proper; [reflexivity|].
      assert (Hr : in_range n (length i) (trace_index s Dl ks ls f)).
      { unfold trace_index. split; [rewrite map_length, seq_length; exact Ls|]. apply Forall_forall. intros q Hq. apply in_map_iff in Hq as (p & <- & _). cbv zeta.
        assert (Hok : forall l, In l (tuples n (length Dl)) -> ok n (assign Dl l f)).
        { intros l Hl x. apply in_tuples in Hl as [Hl1 Hl2]. unfold assign. destruct (index_of String.eqb x Dl) as [j|] eqn:Ej; [|apply Of].
          apply (proj1 (Forall_forall _ _) Hl2). apply nth_In. apply spos_some in Ej as [Ej _]. rewrite Hl1. apply nth_error_Some. congruence. }
        destruct (existsb _ _); apply Hok; assumption. }
      rewrite Va by exact Hr. apply Hraise, Hr. }
    rewrite Ew in Ez. rewrite Ec in Ei'. destruct HD' as [-> |Ht'].
    + assert (Nds : NoDup s).
      { apply count_nodup. intros x. specialize (Hc x). destruct (Nat.eq_dec (count String.eqb x s) 2) as [E2|E2]; [apply HD in E2; destruct E2|lia]. }
      assert (Ep : calc_call t s w = (Ok (mkCalc (Some t) s RTensor), w)).
      { unfold calc_call. eapply calc_init_plain; [exact Hk|exact Nk|exact Hob| | |rewrite Ra; congruence|exact Nds]; [|congruence].
        rewrite (get_default w t o c Hob Co). rewrite Ei. exact Eg. }
      rewrite Ep in E. injection E as Ez' Ew'. subst w'. assert (t' = t) by congruence. subst t'.
      rewrite Hob in Ho'. injection Ho' as <-. assert (b = a).
      { destruct Sd as (_ & d & Hd1 & Hd2). destruct Sd' as (_ & d' & Hd1' & Hd2'). congruence. }
      subst b. exists t, h. split; [rewrite Ez; reflexivity|]. split; [exact Ht|]. split; [rewrite <- Ei', Ei; exact Ho|]. split; [exact Nf|]. split; [congruence|].
      intros f Hf. rewrite <- (Hb f Hf). symmetry. apply Va. split; [rewrite map_length, <- Ei, Ei'; congruence|]. apply Forall_forall. intros q Hq.
      apply in_map_iff in Hq as (y & <- & Hy). apply Hf, Hy.
    + destruct (Hnew t' o' Ht' Ho') as (Hcl & sy & i' & r & ->). cbn [tobj o_indices] in Ei'. subst i'.
      exists t', (aget r). assert (b = r).
      { destruct Sd' as (_ & d & Hd1 & Hd2). cbn in Hd1. rewrite Nat.eqb_refl in Hd1. injection Hd1 as <-. cbn in Hd2. rewrite cfg_eqb_refl in Hd2. congruence. }
      subst b. split; [exact Ez|]. split; [left; unfold N1 in Ht'; lia|]. cbn [tobj o_indices] in Rb.
      split; [|split; [exact Nf|split; [congruence|exact Hb]]].
      split; [|split; [|split; [exact Vf|split]]].
      * eexists _, _, r. split; [exact Hcl|]. split; [discriminate|]. split; [exact Ho'|]. split; [reflexivity|]. split; [reflexivity|]. split; [reflexivity|]. split; [apply tobj_stored|].
        split; [exact Cb|]. split; [exact Rb|]. intros idx _. reflexivity.
      * intros o1 d j b1 Ho1 Hd1 Hb1. rewrite Ho' in Ho1. injection Ho1 as <-. cbn in Hd1. rewrite Nat.eqb_refl in Hd1. injection Hd1 as <-. cbn in Hb1.
        destruct (cfg_eqb j (indices_without s (conf t) (repeated s))) eqn:Ej; [|discriminate]. apply cfg_eqb_spec in Ej. subst j. injection Hb1 as <-.
        split; [exact Vf|]. split; [reflexivity|]. split; [exact Cb|]. split; [exact Rb|]. intros idx Hi. symmetry. apply converted_self. exact Hi.
      * rewrite Hcl. discriminate.
      * intros o1 Ho1. rewrite Ho' in Ho1. injection Ho1 as <-. intros [_ H]. eapply H. reflexivity.
Qed.

Lemma steps_sub w x y s1 i1 F1 s2 i2 F2 : base_ok w -> tens w x s1 i1 F1 -> tens w y s2 i2 F2 -> Permutation s1 s2 ->
  steps w (calc_sub x (OCalc y)) (fun z w' => exists h2 i2', same_indices s1 i1 s2 i2' /\ valid_cfg i2' /\ length i2' = length s2 /\ (forall y, In y s2 -> zof s2 i2' y = zof s1 i1 y) /\
    (forall f, (forall y, In y s2 -> f y < n) -> keq (h2 (map f s2)) (kopp (F2 f))) /\
    tens w' z s1 i1 (fun f => kadd (F1 f) (converted n g gi i2 i2' h2 (map f s2)))).
Proof.
  intros B T1 T2 Hp.
  assert (H : steps w (let! z := calc_neg y in calc_add x (OCalc z)) (fun z w' => exists h2 i2', same_indices s1 i1 s2 i2' /\ valid_cfg i2' /\ length i2' = length s2 /\ (forall y, In y s2 -> zof s2 i2' y = zof s1 i1 y) /\
    (forall f, (forall y, In y s2 -> f y < n) -> keq (h2 (map f s2)) (kopp (F2 f))) /\
    tens w' z s1 i1 (fun f => kadd (F1 f) (converted n g gi i2 i2' h2 (map f s2))))).
  { eapply steps_bind; [apply (steps_neg n m c name xs g gi N0 Lv w y s2 i2 F2 B T2)|]. intros z w1 S1 X1 T3. assert (B1 := base_ext n m c name xs g gi N0 Lv w w1 B S1 X1).
    apply (steps_add n m c name xs g gi N0 Lv w1 x z s1 i1 F1 s2 i2 _ B1 (tens_mono n m c g gi N0 Lv w w1 _ _ _ _ X1 T1) T3 Hp). }
  destruct H as (z & w' & E & H). exists z, w'. split; [|exact H]. rewrite <- E. clear E H.
  destruct (tens_labelled n m c name xs g gi N0 Lv _ _ _ _ _ (proj1 B) T1) as (t1 & k1 & o1 & a1 & h1 & X1 & Mt & O1 & K1 & N1 & M1 & E1 & C1 & S1 & Ca1 & R1 & Rl1 & Y1 & He & G1 & V1 & H1).
  destruct (tens_labelled n m c name xs g gi N0 Lv _ _ _ _ _ (proj1 B) T2) as (t2 & k2 & o2 & a2 & h2 & X2 & Mt2 & O2 & K2 & N2 & M2 & E2 & C2 & S2 & Ca2 & R2 & Rl2 & Y2 & He2 & G2 & V2 & H2).
  destruct X1 as (Rx & Tx & Ox & Nx & Lx & Kx & Vx), X2 as (Ry & Ty & Oy & Ny & Ly & Ky & Vy).
  unfold calc_sub. rewrite Rx, Ry. cbn [is_tensor_role negb orb].
  rewrite (bind_ok _ _ t1 w w) by (unfold tensor_of; rewrite Tx; reflexivity). rewrite (bind_ok _ _ o1 w w) by (apply getobj_ok, Ox).
  rewrite (bind_ok _ _ t2 w w) by (unfold tensor_of; rewrite Ty; reflexivity). rewrite (bind_ok _ _ o2 w w) by (apply getobj_ok, Oy).
  assert (Hlen := Permutation_length Hp).
  assert (Er : (o_rank o1 =? o_rank o2) = true) by (apply Nat.eqb_eq; congruence). rewrite Er. cbn [negb].
  rewrite <- Y1, <- Y2 in Hp. rewrite (proj2 (is_permutation_spec _ _) Hp). cbn [negb]. rewrite andb_false_r. reflexivity.
Qed.

Theorem eval_steps p w : base_ok w -> well_formed conf p -> (forall t, In t (leaves p) -> mine N0 Lv t /\ opd w t (conf t) (raised t)) ->
  steps w (eval p) (fun z w' => tens w' z (free_syms p) (cfg p) (lifted n (free_syms p) (map cv (cfg p)) (val p))).
Proof.
  revert w. induction p as [t s|x IHx y IHy|x IHx y IHy|x IHx|k x IHx|k x IHx|x IHx y IHy|a x IHx]; intros w B W Hl; assert (HS := proj1 B); assert (Hn := session_n w HS); assert (Hsy := session_sym w HS); assert (Hin := session_inv w HS).
  - destruct (Hl t (or_introl eq_refl)) as [Mt Ot]. destruct W as [Ls Hc]. cbn [eval]. apply (steps_call w t s (raised t)); auto. reflexivity.
  - cbn [leaves eval] in *. destruct W as (Wx & Wy & Hp).
    eapply steps_bind; [apply IHx; [exact B|exact Wx|intros t Ht; apply Hl, in_or_app; auto]|]. intros zx w1 S1 X1 T1.
    assert (B1 := base_ext n m c name xs g gi N0 Lv w w1 B S1 X1).
    eapply steps_bind; [apply IHy; [exact B1|exact Wy|]|].
    { intros t Ht. destruct (Hl t) as [H1 H2]; [apply in_or_app; auto|]. split; [exact H1|]. apply X1, H2. }
    intros zy w2 S2 X2 T2. assert (B2 := base_ext n m c name xs g gi N0 Lv w1 w2 B1 S2 X2).
    eapply steps_weaken; [|apply (steps_add n m c name xs g gi N0 Lv w2 zx zy _ _ _ _ _ _ B2 (tens_mono n m c g gi N0 Lv w1 w2 _ _ _ _ X2 T1) T2 Hp)].
    cbv beta. intros z w' _ _ (h2 & i2' & Hi & Vi' & Li' & Zi & Hh & Tz). cbn [free_syms free_cfg].
    assert (Nx := FormVal2_P.free_nodup n conf T x Wx). assert (Ny := FormVal2_P.free_nodup n conf T y Wy). assert (Lx := free_length n conf T x Wx). assert (Ly := free_length n conf T y Wy).
    assert (Vy : valid_cfg (cfg y)) by (apply free_valid; intros t Ht; destruct (Hl t) as [_ H]; [apply in_or_app; auto|apply H]).
    eapply tens_ext; [|exact Tz].
    assert (DVx := FormVal2_P.value_dep n g gi conf xs T x Wx). assert (DVy := FormVal2_P.value_dep n g gi conf xs T y Wy).
    assert (DVy' : dep (fun z => In z (free_syms x)) (val y)) by (eapply dep_weaken; [|exact DVy]; intros u Hu; apply (Permutation_in u (Permutation_sym Hp)), Hu).
    intros f Hf. assert (Hfy : forall u, In u (free_syms y) -> f u < n) by (intros u Hu; apply Hf, (Permutation_in u (Permutation_sym Hp)), Hu).
    assert (Hc : keq (converted n g gi (cfg y) i2' h2 (map f (free_syms y))) (lifted n (free_syms y) (map cv i2') (val y) f)) by (apply conv_lift; auto).
    assert (Hq : keq (lifted n (free_syms y) (map cv i2') (val y) f) (lifted n (free_syms x) (map cv (cfg x)) (val y) f)).
    { clear Hc. revert f Hf Hfy. assert (G : forall f, (forall u, In u (free_syms x) -> f u < n) -> keq (lifted n (free_syms y) (map cv i2') (val y) f) (lifted n (free_syms x) (map cv (cfg x)) (val y) f)); [|intros f Hf _; apply G, Hf].
      apply clip; [exact Hn| |apply lifted_dep, DVy'|].
      - eapply dep_weaken; [|apply lifted_dep, DVy]. intros u Hu. apply (Permutation_in u (Permutation_sym Hp)), Hu.
      - intros f Of. apply lifted_perm; auto. eapply dep_pure, DVy. }
    cbv beta. rewrite Hc, Hq. symmetry. cbn [value]. apply lifted_add.
  - cbn [leaves eval] in *. destruct W as (Wx & Wy & Hp).
    eapply steps_bind; [apply IHx; [exact B|exact Wx|intros t Ht; apply Hl, in_or_app; auto]|]. intros zx w1 S1 X1 T1.
    assert (B1 := base_ext n m c name xs g gi N0 Lv w w1 B S1 X1).
    eapply steps_bind; [apply IHy; [exact B1|exact Wy|]|].
    { intros t Ht. destruct (Hl t) as [H1 H2]; [apply in_or_app; auto|]. split; [exact H1|]. apply X1, H2. }
    intros zy w2 S2 X2 T2. assert (B2 := base_ext n m c name xs g gi N0 Lv w1 w2 B1 S2 X2).
    eapply steps_weaken; [|apply (steps_sub w2 zx zy _ _ _ _ _ _ B2 (tens_mono n m c g gi N0 Lv w1 w2 _ _ _ _ X2 T1) T2 Hp)].
    cbv beta. intros z w' _ _ (h2 & i2' & Hi & Vi' & Li' & Zi & Hh & Tz). cbn [free_syms free_cfg].
    assert (Nx := FormVal2_P.free_nodup n conf T x Wx). assert (Ny := FormVal2_P.free_nodup n conf T y Wy). assert (Lx := free_length n conf T x Wx). assert (Ly := free_length n conf T y Wy).
    assert (Vy : valid_cfg (cfg y)) by (apply free_valid; intros t Ht; destruct (Hl t) as [_ H]; [apply in_or_app; auto|apply H]).
    eapply tens_ext; [|exact Tz].
    assert (DVx := FormVal2_P.value_dep n g gi conf xs T x Wx). assert (DVy0 := FormVal2_P.value_dep n g gi conf xs T y Wy).
    set (Vo := fun f => kopp (val y f)).
    assert (DVy : dep (fun z => In z (free_syms y)) Vo) by (intros f1 f2 E12; unfold Vo; rewrite (DVy0 f1 f2 E12); reflexivity).
    assert (DVy' : dep (fun z => In z (free_syms x)) Vo) by (eapply dep_weaken; [|exact DVy]; intros u Hu; apply (Permutation_in u (Permutation_sym Hp)), Hu).
    assert (Hh' : forall f, (forall u, In u (free_syms y) -> f u < n) -> keq (h2 (map f (free_syms y))) (lifted n (free_syms y) (map cv (cfg y)) Vo f)).
    { intros f Hf. rewrite (Hh f Hf). symmetry. apply lifted_opp. }
    intros f Hf. assert (Hfy : forall u, In u (free_syms y) -> f u < n) by (intros u Hu; apply Hf, (Permutation_in u (Permutation_sym Hp)), Hu).
    assert (Hc : keq (converted n g gi (cfg y) i2' h2 (map f (free_syms y))) (lifted n (free_syms y) (map cv i2') Vo f)) by (apply conv_lift; auto).
    assert (Hq : keq (lifted n (free_syms y) (map cv i2') Vo f) (lifted n (free_syms x) (map cv (cfg x)) Vo f)).
    { clear Hc. revert f Hf Hfy. assert (G : forall f, (forall u, In u (free_syms x) -> f u < n) -> keq (lifted n (free_syms y) (map cv i2') Vo f) (lifted n (free_syms x) (map cv (cfg x)) Vo f)); [|intros f Hf _; apply G, Hf].
      apply clip; [exact Hn| |apply lifted_dep, DVy'|].
      - eapply dep_weaken; [|apply lifted_dep, DVy]. intros u Hu. apply (Permutation_in u (Permutation_sym Hp)), Hu.
      - intros f Of. apply lifted_perm; auto. eapply dep_pure, DVy. }
    cbv beta. rewrite Hc, Hq. cbn [value]. rewrite lifted_sub. apply kadd_proper; [reflexivity|]. apply lifted_opp.
  - cbn [leaves eval free_syms free_cfg] in *. eapply steps_bind; [apply IHx; assumption|]. intros zx w1 S1 X1 T1.
    assert (B1 := base_ext n m c name xs g gi N0 Lv w w1 B S1 X1).
    eapply steps_weaken; [|apply (steps_neg n m c name xs g gi N0 Lv w1 zx _ _ _ B1 T1)]. cbv beta. intros z w' _ _ Tz. eapply tens_ext; [|exact Tz].
    intros f _. symmetry. cbn [value]. apply lifted_opp.
  - cbn [leaves eval free_syms free_cfg] in *. eapply steps_bind; [apply IHx; assumption|]. intros zx w1 S1 X1 T1.
    assert (B1 := base_ext n m c name xs g gi N0 Lv w w1 B S1 X1).
    eapply steps_weaken; [|apply (steps_scale n m c name xs g gi N0 Lv w1 zx k _ _ _ B1 T1)]. cbv beta. intros z w' _ _ Tz. eapply tens_ext; [|exact Tz].
    intros f _. symmetry. cbn [value]. apply lifted_scale.
  - cbn [leaves eval free_syms free_cfg] in *. eapply steps_bind; [apply IHx; assumption|]. intros zx w1 S1 X1 T1.
    assert (B1 := base_ext n m c name xs g gi N0 Lv w w1 B S1 X1).
    eapply steps_weaken; [|apply (steps_div n m c name xs g gi N0 Lv w1 zx k _ _ _ B1 T1)]. cbv beta. intros z w' _ _ Tz. eapply tens_ext; [|exact Tz].
    intros f _. symmetry. cbn [value]. apply lifted_scale.
  - cbn [leaves eval] in *. assert (W' := W). destruct W' as (Wx & Wy).
    eapply steps_bind; [apply IHx; [exact B|exact Wx|intros t Ht; apply Hl, in_or_app; auto]|]. intros zx w1 S1 X1 T1.
    assert (B1 := base_ext n m c name xs g gi N0 Lv w w1 B S1 X1).
    eapply steps_bind; [apply IHy; [exact B1|exact Wy|]|].
    { intros t Ht. destruct (Hl t) as [H1 H2]; [apply in_or_app; auto|]. split; [exact H1|]. apply X1, H2. }
    intros zy w2 S2 X2 T2. assert (B2 := base_ext n m c name xs g gi N0 Lv w1 w2 B1 S2 X2). assert (T1' := tens_mono n m c g gi N0 Lv w1 w2 _ _ _ _ X2 T1).
    assert (Nx := FormVal2_P.free_nodup n conf T x Wx). assert (Ny := FormVal2_P.free_nodup n conf T y Wy). assert (Lx := free_length n conf T x Wx). assert (Ly := free_length n conf T y Wy).
    assert (Vx : valid_cfg (cfg x)) by (apply free_valid; intros t Ht; destruct (Hl t) as [_ H]; [apply in_or_app; auto|apply H]).
    assert (Vy : valid_cfg (cfg y)) by (apply free_valid; intros t Ht; destruct (Hl t) as [_ H]; [apply in_or_app; auto|apply H]).
    assert (DVx := FormVal2_P.value_dep n g gi conf xs T x Wx). assert (DVy := FormVal2_P.value_dep n g gi conf xs T y Wy).
    set (sx := free_syms x) in *. set (sy := free_syms y) in *.
    assert (DR : dep (fun u => In u (without sx sy ++ without sy sx)) (val (FMul x y))) by (apply (FormVal2_P.value_dep n g gi conf xs T (FMul x y) W)).
    destruct (opposite_ex sx (cfg x) sy (cfg y) Nx Ny Lx Ly Vx Vy) as (i2' & Hopp & Vi2').
    assert (Li2 : length i2' = length sy) by apply Hopp.
    assert (PV := fun f => product_value n g gi Hsy Hin sx (cfg x) sy (cfg y) i2' (val x) (val y) f Nx Ny Lx Ly Vx Hopp DVx DVy). cbv zeta in PV.
    destruct (list_eq_dec Z.eq_dec (cfg x) []) as [Ex|Ex]; [|destruct (list_eq_dec Z.eq_dec (cfg y) []) as [Ey|Ey]].
    + assert (Esx : sx = []) by (apply length_zero_iff_nil; rewrite <- Lx, Ex; reflexivity).
      eapply steps_weaken; [|apply (steps_mul_scalar n m c name xs g gi N0 Lv w2 zx zy _ _ _ _ _ _ B2 T1' T2 (or_introl Ex))].
      cbv beta. intros z w' _ _ Tz. cbn [free_syms free_cfg]. fold sx sy. fold sx sy in Tz. rewrite Esx in *. rewrite Ex in *. cbn [app without filter] in *.
      assert (Ew : without sy [] = sy) by apply without_nil. assert (Ei : indices_without sy (cfg y) [] = cfg y) by (apply indices_without_nil; exact Ly).
      change (indices_without [] [] sy) with (@nil Z) in *. cbn [app] in *. rewrite Ew, Ei in *. eapply tens_ext; [|exact Tz].
      assert (E2 : i2' = cfg y) by (apply (opposite_disjoint [] [] sy (cfg y) i2' Ly eq_refl Hopp)). subst i2'.
      apply clip; [exact Hn| | |].
      * intros f1 f2 E12. rewrite (lifted_dep n _ (map cv (cfg y)) _ DVy f1 f2 E12). rewrite (lifted_dep n [] (map cv []) _ DVx f1 f2); [reflexivity|intros u []].
      * apply lifted_dep, DR.
      * intros f Of. cbn [value]. fold sx sy. rewrite Esx. change (common [] sy) with (@nil string). specialize (PV f Of).
        change (common [] sy) with (@nil string) in PV. cbn [length tuples lsum] in PV. rewrite <- PV. unfold lsum. cbn [fold_right map].
        assert (Ea : forall V, dep (fun _ => True) V -> keq (V (assign [] [] f)) (V f)) by (intros V HV; apply HV; reflexivity).
        cbn [map]; rewrite (Ea (lifted n [] [] (val x))), (Ea (lifted n sy (map cv (cfg y)) (val y))); [ring| |]; eapply dep_pure, lifted_dep; eassumption.
    + assert (Esy : sy = []) by (apply length_zero_iff_nil; rewrite <- Ly, Ey; reflexivity).
      eapply steps_weaken; [|apply (steps_mul_scalar n m c name xs g gi N0 Lv w2 zx zy _ _ _ _ _ _ B2 T1' T2 (or_intror Ey))].
      cbv beta. intros z w' _ _ Tz. cbn [free_syms free_cfg]. fold sx sy. fold sx sy in Tz. rewrite Esy in *. rewrite Ey in *.
      assert (Ew : without sx [] = sx) by apply without_nil. assert (Ei : indices_without sx (cfg x) [] = cfg x) by (apply indices_without_nil; exact Lx).
      change (indices_without [] [] sx) with (@nil Z) in *. change (without [] sx) with (@nil string) in *. rewrite Ew, Ei in *. rewrite !app_nil_r in *. eapply tens_ext; [|exact Tz].
      assert (i2' = []) by (destruct i2'; [reflexivity|discriminate]). subst i2'.
      assert (Ecm : common sx [] = []) by (destruct (common sx []) as [|u l] eqn:Eu; [reflexivity|]; assert (Hu : In u (common sx [])) by (rewrite Eu; left; reflexivity); apply common_in in Hu as [_ []]).
      apply clip; [exact Hn| | |].
      * intros f1 f2 E12. rewrite (lifted_dep n _ (map cv (cfg x)) _ DVx f1 f2 E12). rewrite (lifted_dep n [] (map cv []) _ DVy f1 f2); [reflexivity|intros u []].
      * apply lifted_dep, DR.
      * intros f Of. cbn [value]. fold sx sy. rewrite Esy, Ecm. specialize (PV f Of).
        rewrite Ecm in PV. cbn [length tuples lsum] in PV. rewrite <- PV. unfold lsum. cbn [fold_right map].
        assert (Ea : forall V, dep (fun _ => True) V -> keq (V (assign [] [] f)) (V f)) by (intros V HV; apply HV; reflexivity).
        cbn [map]; rewrite (Ea (lifted n [] [] (val y))), (Ea (lifted n sx (map cv (cfg x)) (val x))); [ring| |]; eapply dep_pure, lifted_dep; eassumption.
    + eapply steps_weaken; [|apply (steps_mul n m c name xs g gi N0 Lv w2 zx zy _ _ _ _ _ _ i2' B2 T1' T2 Ex Ey Hopp Vi2')].
      cbv beta. intros z w' _ _ (h2 & Hh & Tz). cbn [free_syms free_cfg]. fold sx sy. fold sx sy in Tz, Hh.
      destruct Tz as (t & h & Ez & Mt & Ot & Nt & Lt & Vt). exists t, h. do 5 (split; [assumption|]).
      apply clip; [exact Hn|apply (map_dep h)|apply lifted_dep, DR|]. intros f Of. rewrite Vt by (intros u _; apply Of).
      cbn [value]. fold sx sy. rewrite <- (PV f Of). apply lsum_ext. intros ks Hks. apply kmul_proper; [reflexivity|].
      apply conv_lift; auto. intros u _. apply in_tuples in Hks as [Hk1 Hk2]. unfold assign.
      destruct (index_of String.eqb u (common sx sy)) as [j|] eqn:Ej; [|apply Of]. apply (proj1 (Forall_forall _ _) Hk2). apply nth_In.
      apply spos_some in Ej as [Ej _]. rewrite Hk1. apply nth_error_Some. congruence.
  - cbn [leaves eval] in *. assert (W' := W). destruct W' as (Wx & Na).
    assert (Hb : steps w (let! y := eval x in matmul0 (mkCalc None [a] RPartial) y) (fun z w' => tens w' z (free_syms (FGrad a x)) (cfg (FGrad a x)) (lifted n (free_syms (FGrad a x)) (map cv (cfg (FGrad a x))) (val (FGrad a x))))); [|exact Hb].
    eapply steps_bind; [apply IHx; assumption|]. intros zx w1 S1 X1 T1.
    assert (B1 := base_ext n m c name xs g gi N0 Lv w w1 B S1 X1).
    eapply steps_weaken; [|apply (steps_gradient n m c name xs g gi N0 Lv w1 a zx _ _ _ B1 T1 Na)]. cbv beta. intros z w' _ _ Tz.
    destruct Tz as (t & h & Ez & Mt & Ot & Nt & Lt & Vt). exists t, h. do 5 (split; [assumption|]).
    assert (Nx := FormVal2_P.free_nodup n conf T x Wx). assert (Lx := free_length n conf T x Wx).
    assert (Vx : valid_cfg (cfg x)) by (apply free_valid; intros u Hu; destruct (Hl u Hu) as [_ H]; apply H).
    assert (DVx := FormVal2_P.value_dep n g gi conf xs T x Wx).
    assert (DR : dep (fun u => In u (free_syms (FGrad a x))) (val (FGrad a x))) by (apply (FormVal2_P.value_dep n g gi conf xs T (FGrad a x) W)).
    apply clip; [exact Hn|apply (map_dep h)|apply lifted_dep, DR|]. intros f Of. cbn [free_syms]. rewrite Vt by (intros u _; apply Of).
    cbn [free_cfg value]. symmetry. rewrite lifted_back; auto; [reflexivity|].
    intros f1 f2 E12. rewrite (E12 a I). apply kdiff_proper. apply (lifted_dep n _ _ _ DVx). intros u _. apply E12, I.
Qed.
End Eval.
