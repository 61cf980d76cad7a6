(** Formulas, and the tensors made of them. *)
From Coq Require Import Permutation Bool.
From Verif Require Import Alg Alg_P Arr Arr_P Spec UtilsM Utils_P Arr2_P Act_P RL_P Tensor_P TensorM WorldM SpecWorld World_P Registry_P CalcM SpecCalc Keep_P Calc_P Calc2_P Calc3_P Calc4_P Trace_P Run_P CurvM SpecCurv SpecForm Form_P Form2_P CurvRun_P Norm_P Scalar_P Along_P Label_P FormVal_P FormVal2_P FormRun_P FormRun2_P.
Local Open Scope nat_scope.

Lemma zof_same s i s' i' y : NoDup s -> same_indices s i s' i' -> In y s' -> zof s' i' y = zof s i y.
Proof.
  intros Nd (L1 & L2 & H) Hy. unfold zof at 1. destruct (spos_in y s' Hy) as (j & E & Hj). rewrite E. apply spos_some in E as [E _].
  assert (Hz : nth_error i' j = Some (nth j i' 0%Z)) by (apply nth_error_nth'; lia).
  assert (Hi : In (y, nth j i' 0%Z) (combine s i)).
  { apply H. apply (nth_error_In _ j), combine_nth_error. auto. }
  assert (Hi' := Hi). rewrite <- (map_id i), (combine_zof (fun z => z) s i Nd L1) in Hi'. apply in_map_iff in Hi' as (y' & Ey & _). congruence.
Qed.

Section Top.
Context {A : AlgOps} {L : AlgLaws A} {D : DiffLaws A}.
Add Ring Kring : kring (setoid keq_equiv kring_ext).
Variables (n : nat) (m c : oid) (name : string) (xs : list string) (g gi : nat -> nat -> K).
Variables (conf : oid -> list Z) (T : oid -> list nat -> K).
Notation session w := (metric_session w n m c name xs g gi).
Notation opd w t i h := (operand w n m c g gi t i h).
Notation cv := (conv g gi (-1)%Z).
Notation val := (value conf n xs g gi T).
Notation comps := (components_in conf n xs g gi T).
Notation cfg := (free_cfg conf).

Lemma operand_ext w t i h h' : (forall idx, in_range n (length i) idx -> keq (h idx) (h' idx)) -> opd w t i h -> opd w t i h'.
Proof.
  intros H ((k & o & a & H1 & H2 & H3 & H4 & H5 & H6 & H7 & Ca & Ra & Va) & S & R). split; [|split; [|exact R]].
  - exists k, o, a. do 7 (split; [assumption|]). split; [exact Ca|]. split; [exact Ra|]. intros idx Hi. rewrite (Va idx Hi). apply H, Hi.
  - intros o1 d j b Ho Hd Hb. destruct (S o1 d j b Ho Hd Hb) as (Vj & Lj & Cb & Rb & Vb). split; [exact Vj|]. split; [exact Lj|]. split; [exact Cb|]. split; [exact Rb|].
    intros idx Hi. rewrite (Vb idx Hi). unfold converted. apply act_ext; [rewrite map_length, combine_length; destruct Hi; lia|apply Hi|].
    intros ks Lk Hk. apply H. split; [rewrite Lk; apply Hi|exact Hk].
Qed.
Lemma lifted_comps p s i idx : well_formed conf p -> NoDup s -> Permutation (free_syms p) s -> length idx = length s ->
  keq (lifted n s (map cv i) (val p) (assign s idx (fun _ => 0))) (comps p s i idx).
Proof.
  intros W Nd Hp Li. unfold lifted, components_in. rewrite assign_map by assumption. unfold act. apply lsum_ext. intros ks _. apply kmul_proper; [reflexivity|].
  apply (value_dep n g gi conf xs T p W). intros x Hx. apply assign_inside. apply (Permutation_in x Hp), Hx.
Qed.
Lemma in_range_comps (s : list string) idx y : NoDup s -> in_range n (length s) idx -> In y s -> assign s idx (fun _ => 0) y < n.
Proof.
  intros Nd [Li Hi] Hy. apply (proj1 (Forall_forall _ _) Hi). assert (E := in_map (assign s idx (fun _ => 0)) s y Hy). rewrite assign_map in E by assumption. exact E.
Qed.

Notation raised t := (act n (map cv (conf t)) (T t)).

Theorem eval_value p w : session w -> well_formed conf p -> (forall t, In t (leaves p) -> opd w t (conf t) (raised t)) ->
  exists x t w', eval p w = (Ok x, w') /\ x = mkCalc (Some t) (free_syms p) RTensor /\ session w' /\ opd w' t (cfg p) (comps p (free_syms p) (cfg p)) /\
    (forall q i h, opd w q i h -> opd w' q i h) /\ only_grows (leaves p) w w' /\ ext n m c g gi (length (heap w)) (fun q => In q (leaves p)) w w'.
Proof.
  intros HS W Hl.
  destruct (eval_steps n m c name xs g gi (length (heap w)) (fun q => In q (leaves p)) conf T p w) as (x & w' & E & S' & X' & (t & h & Ex & Mt & Ot & Nt & Lt & Vt)).
  - split; [exact HS|lia].
  - exact W.
  - intros t Ht. split; [right; exact Ht|apply Hl, Ht].
  - exists x, t, w'. split; [exact E|]. split; [exact Ex|]. split; [exact S'|]. split; [|split; [apply X'|split; [|exact X']]].
    + eapply operand_ext; [|exact Ot]. intros idx Hi. rewrite <- Lt in Hi. rewrite <- (lifted_comps p (free_syms p) (cfg p) idx W Nt (Permutation_refl _) (proj1 Hi)).
      rewrite <- Vt; [rewrite assign_map; [reflexivity|exact Nt|apply Hi]|]. intros y Hy. apply in_range_comps; auto.
    + destruct X' as (_ & _ & X1 & l & X2 & X3). split.
      * intros j o Ho. destruct (X1 j o Ho) as (K1 & o' & Ho' & E1 & S1 & C1). split; [exact K1|]. split; [rewrite X2; intros Hj; apply in_or_app; auto|].
        exists o'. split; [exact Ho'|]. split; [|split; [exact S1|exact C1]]. intros Hj. apply E1. left. intros [Hm|Hm]; [|contradiction]. apply obj_of_lt in Ho. lia.
      * intros j Hj. rewrite X2 in Hj. apply in_app_or in Hj as [Hj|Hj]; auto.
Qed.

Theorem eval_formula p w : session w -> well_formed conf p -> (forall t, In t (leaves p) -> opd w t (conf t) (raised t)) ->
  exists t w', eval p w = (Ok (mkCalc (Some t) (free_syms p) RTensor), w') /\ opd w' t (cfg p) (comps p (free_syms p) (cfg p)) /\ session w' /\
    (forall q i h, opd w q i h -> opd w' q i h) /\ only_grows (leaves p) w w'.
Proof.
  intros HS W Hl. destruct (eval_value p w HS W Hl) as (x & t & w' & E & -> & S' & Op & K & Fr & _). exists t, w'. auto.
Qed.

Lemma calc_core p nm sy req i' w : session w -> well_formed conf p -> (forall t, In t (leaves p) -> opd w t (conf t) (raised t)) ->
  nm <> "TEMP"%string -> req = [] \/ Permutation (free_syms p) req ->
  let order := match req with [] => free_syms p | _ => req end in
  same_indices (free_syms p) (cfg p) order i' ->
  exists t w' o, (let! x := eval p in run_calc x nm sy req) w = (Ok t, w') /\ obj_of w t = None /\ In t (insts w') /\
    obj_of w' t = Some o /\ o_name o = nm /\ o_symbol o = sy /\ cls_of w' t = Some CTensor /\ opd w' t i' (comps p order i') /\ session w' /\
    (forall q i h o, obj_of w q = Some o -> o_name o <> "TEMP"%string -> opd w q i h -> opd w' q i h) /\ only_adds_one (leaves p) t w w' /\
    (exists b, o = tobj nm sy i' c m b) /\ obj_of w' m = obj_of w m /\
    (forall j o', In j (insts w') -> obj_of w' j = Some o' -> j = t \/ o_name o' = "TEMP"%string \/ exists o0, obj_of w j = Some o0 /\ same_attrs o0 o').
Proof.
  intros HS W Hl Hnm Hreq order Hi.
  destruct (eval_steps n m c name xs g gi (length (heap w)) (fun q => In q (leaves p)) conf T p w) as (x & w1 & E1 & S1 & X1 & T1).
  { split; [exact HS|lia]. } { exact W. } { intros t Ht. split; [right; exact Ht|apply Hl, Ht]. }
  assert (T1' : Form_P.tens n m c w1 x (free_syms p) (cfg p) (lifted n (free_syms p) (map cv (cfg p)) (val p))).
  { destruct (tens_labelled n m c name xs g gi _ _ _ _ _ _ _ S1 T1) as (t1 & k1 & o1 & a1 & h1 & Y1 & Mt & O1 & K1 & N1 & M1 & I1 & C1 & Sd1 & Ca1 & R1 & Rl1 & Z1 & He & G1 & V1 & H1).
    split; [exact Z1|]. exists t1, k1, o1, a1. do 7 (split; [first [assumption|congruence]|]). split; [congruence|]. exact V1. }
  assert (Ns := FormVal2_P.free_nodup n conf T p W). assert (Ls := free_length n conf T p W).
  assert (Hp : Permutation (free_syms p) order) by (unfold order; destruct Hreq as [->|H]; [apply Permutation_refl|]; destruct req; [apply Permutation_refl|exact H]).
  assert (No : NoDup order) by (eapply Permutation_NoDup; eauto).
  destruct (result_run_as w1 n m c name xs g gi S1 nm sy w1 x (free_syms p) (cfg p) _ req i' Hnm (form_base w1 n m c name xs g gi S1) T1' Hreq Hi)
    as (r & b & w2 & E2 & G2 & A2 & Lr & Ir & Ur & Kr & Or & Cb & Rb & Vi & Lo & Vb). fold order in Lo, Vb.
  assert (S2 := session_adds w1 n m c name xs g gi S1 _ _ G2 A2).
  assert (Vb' : forall idx, in_range n (length i') idx -> keq (aget b idx) (comps p order i' idx)).
  { intros idx Hx. rewrite <- Lo in Hx. rewrite <- (lifted_comps p order i' idx W No Hp (proj1 Hx)). rewrite <- (assign_map order idx (fun _ => 0) No (proj1 Hx)) at 1.
    set (f := assign order idx (fun _ => 0)). assert (Hf : forall y, In y order -> f y < n) by (intros y Hy; apply in_range_comps; auto). rewrite (Vb f Hf).
    clearbody f. clear Hx idx. revert f Hf. apply clip; [apply HS| | |].
    - eapply dep_weaken; [|apply lifted_dep, (value_dep n g gi conf xs T p W)]. intros y Hy. apply (Permutation_in y Hp), Hy.
    - apply lifted_dep. eapply dep_weaken; [|apply (value_dep n g gi conf xs T p W)]. intros y Hy. apply (Permutation_in y Hp), Hy.
    - intros f Of. symmetry. apply lifted_perm; auto; [intros y Hy; apply zof_same; auto|eapply dep_pure, (value_dep n g gi conf xs T p W)]. }
  destruct A2 as (a1 & a2 & a3 & a4 & a5).
  exists r, w2, (tobj nm sy i' c m b). split; [rewrite (bind_ok _ _ _ _ _ E1); exact E2|].
  split.
  { destruct (obj_of w r) as [o|] eqn:Eo; [|reflexivity]. apply obj_of_lt in Eo. destruct X1 as (Hlen & _). lia. }
  split; [exact Ir|]. split; [exact Or|]. split; [reflexivity|]. split; [reflexivity|]. split; [exact Kr|]. split; [|split; [exact S2|split; [|split; [|split; [|split]]]]].
  - split; [|split; [|split; [exact Vi|split]]].
    + exists CTensor, (tobj nm sy i' c m b), b. split; [exact Kr|]. split; [discriminate|]. split; [exact Or|]. split; [reflexivity|]. split; [reflexivity|]. split; [reflexivity|]. split; [apply tobj_stored|].
      split; [exact Cb|]. split; [exact Rb|]. exact Vb'.
    + intros o d j b' Ho Hd Hb. rewrite Or in Ho. injection Ho as <-. cbn in Hd. rewrite Nat.eqb_refl in Hd. injection Hd as <-.
      cbn in Hb. destruct (list_eq_dec Z.eq_dec j i') as [->|Nj].
      * rewrite cfg_eqb_refl in Hb. injection Hb as <-. split; [exact Vi|]. split; [reflexivity|]. split; [exact Cb|]. split; [exact Rb|].
        intros idx Hx. rewrite (Vb' idx Hx). symmetry. apply converted_self. exact Hx.
      * destruct (cfg_eqb j i') eqn:Ej; [|discriminate]. apply cfg_eqb_spec in Ej. contradiction.
    + rewrite Kr. discriminate.
    + intros o Ho. rewrite Or in Ho. injection Ho as <-. intros [_ H]. apply (H [(i', b)] []). reflexivity.
  - intros q i h o Ho Hq Hop. apply X1 in Hop. destruct X1 as (_ & _ & X1 & _). destruct (X1 q o Ho) as (K1 & o' & Ho' & _ & Sa & _).
    destruct (a2 q o' Ho') as (B1 & B2 & B3); [destruct Sa as [-> _]; exact Hq|]. eapply operand_same; [exact B2|congruence|exact Hop].
  - destruct X1 as (Hlen & _ & X1 & l & X2 & X3). split.
    + intros j o Ho Hj. destruct (X1 j o Ho) as (K1 & o' & Ho' & F1 & Sa & C1).
      destruct (a2 j o' Ho') as (B1 & B2 & B3); [destruct Sa as [-> _]; exact Hj|]. split; [congruence|]. split; [intros Hij; apply B3; rewrite X2; apply in_or_app; auto|].
      exists o'. split; [exact B1|]. split; [|split; [exact Sa|exact C1]]. intros Hnj. apply F1. left. intros [Hm|Hm]; [|contradiction]. apply obj_of_lt in Ho. lia.
    + intros j Hj. destruct (a3 j Hj) as [[Hj1 Hj2]|[[<-|[]]|H]]; [|auto|auto]. rewrite X2 in Hj1. apply in_app_or in Hj1 as [Hj1|Hj1]; [auto|].
      destruct (X3 j Hj1) as (o & Ho & En). right. right.
      assert (R2 : registry_ok w2) by apply G2. destruct (obj_of w2 j) as [oj|] eqn:Eoj; [|exfalso; apply (proj2 R2 j Hj), Eoj].
      exists oj. split; [exact Eoj|]. assert (H := Hj2 oj eq_refl). congruence.
  - exists b. reflexivity.
  - destruct HS as (_ & _ & _ & _ & _ & _ & _ & _ & _ & _ & Nm & _ & _ & om & Gm & Hom & _). destruct X1 as (_ & _ & X1 & _).
    destruct (X1 m om Hom) as (_ & om' & Hom' & F1 & _). rewrite (F1 (or_intror eq_refl)) in Hom'.
    destruct (a2 m om Hom') as (B1 & _); [intros En; apply Nm; exists om; auto|congruence].
  - intros j o' Hj Ho'. destruct (a3 j Hj) as [[Hj1 Hj2]|[[<-|[]]|(o'' & H1 & H2)]]; [|auto|right; left; congruence].
    assert (Ho1 := Hj2 o' Ho'). destruct X1 as (_ & _ & X1 & l & X2 & X3). rewrite X2 in Hj1. apply in_app_or in Hj1 as [Hj1|Hj1].
    + assert (Rw : registry_ok w) by apply HS. destruct (obj_of w j) as [o0|] eqn:E0; [|exfalso; apply (proj2 Rw j Hj1), E0].
      destruct (X1 j o0 E0) as (_ & o1 & Hx & _ & Sa & _). right. right. exists o0. split; [reflexivity|]. congruence.
    + destruct (X3 j Hj1) as (o1 & Hx & En). right. left. congruence.
Qed.
Theorem calc_value p nm sy req i' w : session w -> well_formed conf p -> (forall t, In t (leaves p) -> opd w t (conf t) (raised t)) ->
  nm <> "TEMP"%string -> req = [] \/ Permutation (free_syms p) req ->
  let order := match req with [] => free_syms p | _ => req end in
  same_indices (free_syms p) (cfg p) order i' ->
  exists t w' o, (let! x := eval p in run_calc x nm sy req) w = (Ok t, w') /\ obj_of w t = None /\ In t (insts w') /\
    obj_of w' t = Some o /\ o_name o = nm /\ o_symbol o = sy /\ cls_of w' t = Some CTensor /\ opd w' t i' (comps p order i') /\ session w' /\
    (forall q i h o, obj_of w q = Some o -> o_name o <> "TEMP"%string -> opd w q i h -> opd w' q i h) /\ only_adds_one (leaves p) t w w'.
Proof.
  intros HS W Hl Hnm Hreq order Hi. destruct (calc_core p nm sy req i' w HS W Hl Hnm Hreq Hi) as (t & w' & o & H). exists t, w', o. tauto.
Qed.
End Top.
