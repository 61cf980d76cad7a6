(** Traces in formulas, and the end of the curvature functions. *)
From Verif Require Import Alg Alg_P Arr Arr_P Spec UtilsM Utils_P Arr2_P Act_P RL_P TensorM WorldM SpecWorld World_P Registry_P CalcM SpecCalc Keep_P Calc_P Calc2_P Calc3_P Calc4_P Trace_P Run_P CurvM SpecCurv Form_P.
Local Open Scope nat_scope.

Lemma nth_error_ext_len {X} (l l' : list X) : length l = length l' ->
  (forall j x y, nth_error l j = Some x -> nth_error l' j = Some y -> x = y) -> l = l'.
Proof.
  revert l'. induction l as [|x l IH]; intros [|y l'] Hl H; cbn in Hl; try discriminate; [reflexivity|].
  rewrite (H 0 x y eq_refl eq_refl). f_equal. apply IH; [lia|]. intros j. apply (H (S j)).
Qed.

(** A configuration is determined by the order of the symbols. *)
Lemma same_indices_unique s i s' i1 i2 : NoDup s' -> same_indices s i s' i1 -> same_indices s i s' i2 -> i1 = i2.
Proof.
  intros Nd (_ & L1 & H1) (_ & L2 & H2).
  assert (H : forall x z, In (x, z) (combine s' i1) -> In (x, z) (combine s' i2)) by (intros x z Hz; apply H2, H1, Hz).
  clear H1 H2. apply nth_error_ext_len; [congruence|]. intros j z1 z2 E1 E2.
  assert (Hj : j < length s') by (rewrite <- L1; apply nth_error_Some; congruence).
  destruct (nth_error s' j) as [x|] eqn:Ex; [|apply nth_error_None in Ex; lia].
  assert (I1 : In (x, z1) (combine s' i1)) by (apply (nth_error_In _ j), combine_nth_error; auto).
  apply H in I1. apply In_nth_error in I1 as (q & Hq). apply combine_nth_error in Hq as [Hq1 Hq2].
  assert (q = j) by (eapply NoDup_nth_error; [exact Nd|apply nth_error_Some; congruence|congruence]). congruence.
Qed.

Section Good.
Context {A : AlgOps}.

Definition good (w : world) : Prop := typed w /\ integrity w /\ temps_unused w.

Lemma good_lt w i oi j : integrity w -> In i (insts w) -> obj_of w i = Some oi -> refers oi j -> j < length (heap w).
Proof.
  intros [[_ R] H] Hi Ho Hr. assert (Hj := H i oi j Hi Ho Hr). specialize (R j Hj).
  destruct (obj_of w j) eqn:E; [|congruence]. eapply obj_of_lt, E.
Qed.
Lemma good_fresh w k name sy i a m c : good w -> cls_of w m = Some CMetric -> cls_of w c = Some CCoordinates -> In m (insts w) -> In c (insts w) ->
  ~ named w "TEMP" m -> ~ named w "TEMP" c -> good (fresh_world w k (tobj name sy i c m a)).
Proof.
  intros (Ht & Hi & Hu) Hm Hc Im Ic Nm Nc. split; [|split].
  - apply typed_fresh; [exact Ht| |]; intros x Hx; injection Hx as <-; assumption.
  - apply integrity_fresh; [exact Hi|]. intros j Hj. apply tobj_refers in Hj as [-> | ->]; auto.
  - apply temps_fresh; [apply Hi|exact Hu| |].
    + intros j Hj. apply tobj_refers in Hj as [-> | ->]; assumption.
    + intros j oj Hj Ho Hr. assert (H := good_lt w j oj _ Hi Hj Ho Hr). lia.
Qed.
Lemma good_cleaned w w' : good w -> cleaned w w' -> registry_ok w' -> good w'.
Proof.
  intros (Ht & [R Hi] & Hu) (_ & Kc & Ks & Kb & Kf) R'. split; [|split].
  - intros i o Ho. destruct (Ht i o (Kb _ _ Ho)) as [H1 H2]. split; intros x Hx; rewrite Kc; auto.
  - split; [exact R'|]. intros i o j Hin Ho Hr. assert (Hin0 := subseq_in _ _ _ Ks Hin). assert (Ho0 := Kb _ _ Ho).
    assert (Hj := Hi i o j Hin0 Ho0 Hr). destruct (Nat.eq_dec i j) as [<-|N]; [exact Hin|].
    destruct (obj_of w j) as [oj|] eqn:Ej; [|destruct R as [_ R]; specialize (R j Hj); congruence].
    destruct (string_dec (o_name oj) "TEMP") as [E|E]; [|apply (Kf j oj Ej E), Hj].
    exfalso. apply (Hu j Hj); [exists oj; auto|]. exists i, o. auto.
  - intros j Hj (oj & Ho & Hn) (i & oi & Hin & N & Hoi & Hr). apply (Hu j (subseq_in _ _ _ Ks Hj)); [exists oj; auto|].
    exists i, oi. split; [eapply subseq_in; eauto|]. auto.
Qed.
Lemma good_removed w t w' : good w -> removed w t w' -> ~ used w t -> good w'.
Proof.
  intros (Ht & [R Hi] & Hu) Hr Nu. assert (Hin := fun j => removed_in w t w' j (proj1 R) Hr). assert (R' := removed_ok w t w' R Hr).
  destruct Hr as (_ & H1 & H2 & H3).
  assert (Hob : forall i o, obj_of w' i = Some o -> i <> t /\ obj_of w i = Some o).
  { intros i o Ho. destruct (Nat.eq_dec i t) as [->|N]; [congruence|]. split; [exact N|]. rewrite <- H2; auto. }
  split; [|split].
  - intros i o Ho. apply Hob in Ho as [_ Ho]. destruct (Ht i o Ho) as [H4 H5]. split; intros x Hx; rewrite H3; auto.
  - split; [exact R'|]. intros i o j Hi' Ho Hrf. apply Hob in Ho as [N Ho]. apply Hin in Hi' as [Hi' _]. apply Hin.
    split; [eapply Hi; eauto|]. intros ->. apply Nu. exists i, o. auto.
  - intros j Hj (oj & Ho & Hn) (i & oi & Hi' & N & Hoi & Hrf). apply Hob in Ho as [_ Ho]. apply Hob in Hoi as [_ Hoi].
    apply Hin in Hj as [Hj _]. apply Hin in Hi' as [Hi' _]. apply (Hu j Hj); [exists oj; auto|]. exists i, oi. auto.
Qed.

(** *** What a function call adds; new objects refer to the metric m and the coordinates c only. *)
Variables m c : oid.
Definition adds (new : list oid) (w w' : world) : Prop :=
  length (heap w) <= length (heap w') /\
  (forall j o, obj_of w j = Some o -> o_name o <> "TEMP"%string ->
     obj_of w' j = Some o /\ cls_of w' j = cls_of w j /\ (In j (insts w) -> In j (insts w'))) /\
  (forall j, In j (insts w') ->
     (In j (insts w) /\ forall o, obj_of w' j = Some o -> obj_of w j = Some o) \/ In j new \/ named w' "TEMP" j) /\
  (forall j o, obj_of w' j = Some o -> j < length (heap w) -> obj_of w j = Some o) /\
  (forall j, used w' j -> used w j \/ j = c \/ j = m).
Lemma adds_refl w : adds [] w w.
Proof. split; [lia|]. split; [auto|]. split; [auto|]. split; auto. Qed.
Lemma adds_trans l1 l2 w1 w2 w3 : registry_ok w3 -> adds l1 w1 w2 -> adds l2 w2 w3 -> adds (l1 ++ l2) w1 w3.
Proof.
  intros [_ R] (a1 & a2 & a3 & a4 & a5) (b1 & b2 & b3 & b4 & b5). split; [lia|]. split; [|split; [|split]].
  - intros j o Ho Hn. destruct (a2 j o Ho Hn) as (H1 & H2 & H3). destruct (b2 j o H1 Hn) as (H4 & H5 & H6). split; [exact H4|]. split; [congruence|auto].
  - intros j Hj. destruct (b3 j Hj) as [[H1 H2]|[H|H]]; [|right; left; apply in_app_iff; auto|auto].
    destruct (a3 j H1) as [[H3 H4]|[H|(o & H & H')]]; [left; split; [exact H3|auto]|right; left; apply in_app_iff; auto|].
    right. right. specialize (R j Hj). destruct (obj_of w3 j) as [o3|] eqn:E; [|congruence]. exists o3. split; [exact E|]. rewrite (H2 o3 eq_refl) in H. congruence.
  - intros j o Ho Hl. apply a4; [|exact Hl]. apply b4; [exact Ho|lia].
  - intros j Hj. destruct (b5 j Hj) as [H|H]; [apply a5, H|auto].
Qed.
Lemma adds_fresh w k o : registry_ok w -> (forall j, refers o j -> j = c \/ j = m) -> adds [length (heap w)] w (fresh_world w k o).
Proof.
  intros R Hr0. split; [cbn [fresh_world heap]; rewrite app_length; lia|]. split; [|split; [|split]].
  - intros j oj Ho Hn. assert (Hl := obj_of_lt _ _ _ Ho). split; [apply obj_fresh_old, Ho|]. split; [apply cls_of_fresh; lia|].
    intros Hj. cbn [fresh_world insts]. apply in_app_iff. auto.
  - intros j Hj. cbn [fresh_world insts] in Hj. apply in_app_iff in Hj as [Hj|[<-|[]]]; [|right; left; left; reflexivity].
    destruct (Nat.eq_dec j (length (heap w))) as [->|N]; [right; left; left; reflexivity|]. left. split; [exact Hj|].
    intros oj. rewrite obj_of_fresh. destruct (Nat.eqb_spec j (length (heap w))); [contradiction|auto].
  - intros j oj. rewrite obj_of_fresh. destruct (Nat.eqb_spec j (length (heap w))); [lia|auto].
  - intros j (i & oi & Hi & N & Ho & Hr). rewrite obj_of_fresh in Ho. destruct (Nat.eqb_spec i (length (heap w))) as [->|Ni].
    + injection Ho as <-. auto.
    + cbn [fresh_world insts] in Hi. apply in_app_iff in Hi as [Hi|[Hi|[]]]; [|congruence]. left. exists i, oi. auto.
Qed.
Lemma adds_cleaned w w' : cleaned w w' -> adds [] w w'.
Proof.
  intros (K1 & Kc & Ks & Kb & Kf). split; [lia|]. split; [|split; [|split]].
  - intros j o Ho Hn. destruct (Kf j o Ho Hn) as [H1 H2]. auto.
  - intros j Hj. left. split; [eapply subseq_in; eauto|apply Kb].
  - intros j o Ho _. apply Kb, Ho.
  - intros j (i & oi & Hi & N & Ho & Hr). left. exists i, oi. split; [eapply subseq_in; eauto|]. auto.
Qed.
(** An object that was added before is removed again. *)
Lemma delete_heap w t s : length (heap (snd (delete t s w))) = length (heap w).
Proof.
  unfold delete; cbv zeta. match goal with |- context [find ?f ?l] => destruct (find f l) as [j|] end.
  { destruct (obj_of w j), (obj_of w t); reflexivity. }
  destruct (obj_of w t); [|destruct s; [destruct (index_of Nat.eqb t (insts w)); reflexivity|reflexivity]].
  destruct (nth_error (heap w) t) as [[k x]|], (index_of Nat.eqb t (insts w)); cbn [snd heap]; try reflexivity; apply set_nth_length.
Qed.

Lemma adds_removed l w0 w t w' : length (heap w0) <= t -> NoDup (insts w) -> length (heap w') = length (heap w) -> adds l w0 w -> removed w t w' ->
  adds (filter (fun j => negb (j =? t)) l) w0 w'.
Proof.
  intros Hl Hn Hh (a1 & a2 & a3 & a4 & a5) Hr. assert (Hin := fun j => removed_in w t w' j Hn Hr). destruct Hr as (_ & H1 & H2 & H3).
  assert (Hob : forall i o, obj_of w' i = Some o -> i <> t /\ obj_of w i = Some o).
  { intros i o Ho. destruct (Nat.eq_dec i t) as [->|N]; [congruence|]. split; [exact N|]. rewrite <- H2; auto. }
  split; [lia|]. split; [|split; [|split]].
  - intros j o Ho Hnm. assert (N : j <> t) by (intros ->; apply obj_of_lt in Ho; lia). destruct (a2 j o Ho Hnm) as (H4 & H5 & H6).
    split; [rewrite H2; auto|]. split; [rewrite H3; exact H5|]. intros Hj. apply Hin. auto.
  - intros j Hj. apply Hin in Hj as [Hj N]. destruct (a3 j Hj) as [[H4 H5]|[H|(o & H & H')]].
    + left. split; [exact H4|]. intros o Ho. apply H5, Hob, Ho.
    + right. left. apply filter_In. split; [exact H|]. destruct (Nat.eqb_spec j t); [contradiction|reflexivity].
    + right. right. exists o. split; [rewrite H2; auto|exact H'].
  - intros j o Ho Hj. apply a4; [apply Hob, Ho|exact Hj].
  - intros j (i & oi & Hi & N & Ho & Hrf). apply a5. exists i, oi. apply Hin in Hi as [Hi _]. apply Hob in Ho as [_ Ho]. auto.
Qed.
End Good.

Section Ends.
Context {A : AlgOps} {L : AlgLaws A} {D : DiffLaws A}.
Add Ring Kring : kring (setoid keq_equiv kring_ext).
Variables (w0 : world) (n : nat) (m c : oid) (name : string) (xs : list string) (g gi : nat -> nat -> K).
Hypothesis HS : metric_session w0 n m c name xs g gi.
Notation form := (form w0 m c).
Notation tens := (tens n m c).
Notation runs := (runs w0 m c).
Notation adds := (adds m c).

Lemma session_good : good w0.
Proof. split; [apply HS|split; apply HS]. Qed.
Lemma session_adds l w : good w -> adds l w0 w -> metric_session w n m c name xs g gi.
Proof.
  intros (H1 & H2 & H3) (a1 & a2 & a3 & a4 & a5).
  destruct HS as (_ & _ & _ & Hn & [Hc (oc & d & x & Hoc & Hd)] & Ic & Nc & (oc' & Hoc' & Hsy) & Hm & Im & Nm & Hsym & Hinv & o & G & Ho & Hnm & Htab).
  rewrite Hoc in Hoc'. injection Hoc' as <-.
  assert (Tc : o_name oc <> "TEMP"%string) by (intros E; apply Nc; exists oc; auto).
  assert (Tm : o_name o <> "TEMP"%string) by (intros E; apply Nm; exists o; auto).
  destruct (a2 c oc Hoc Tc) as (C1 & C2 & C3). destruct (a2 m o Ho Tm) as (M1 & M2 & M3).
  split; [exact H1|]. split; [exact H2|]. split; [exact H3|]. split; [exact Hn|]. split; [split; [congruence|exists oc, d, x; auto]|].
  split; [auto|]. split; [intros (o' & E & E'); congruence|]. split; [exists oc; auto|]. split; [congruence|]. split; [auto|].
  split; [intros (o' & E & E'); congruence|]. split; [exact Hsym|]. split; [exact Hinv|]. exists o, G. auto.
Qed.

Lemma form_good w : form w -> good w /\ adds [] w0 w.
Proof.
  intros F. destruct (session_good) as (_ & [[Rn Ra] Hi] & Hu). assert (Hold := form_old w0 m c w).
  assert (Lc := s_lt_c w0 n m c name xs g gi HS). assert (Lm := s_lt_m w0 n m c name xs g gi HS).
  assert (F' := F). destruct F' as (Ht & Hl & Ho & l & Hin & Nl & Hj).
  assert (Hlt : forall j, In j (insts w0) -> j < length (heap w0)).
  { intros j H. specialize (Ra j H). destruct (obj_of w0 j) eqn:E; [|congruence]. eapply obj_of_lt, E. }
  assert (Ic : In c (insts w0)) by apply HS. assert (Im : In m (insts w0)) by apply HS.
  assert (Nc : ~ named w0 "TEMP" c) by apply HS. assert (Nm : ~ named w0 "TEMP" m) by apply HS.
  assert (Hob : forall j, In j (insts w0) -> obj_of w j = obj_of w0 j) by (intros j H; apply Hold; auto).
  assert (R : registry_ok w).
  { split.
    - rewrite Hin. apply nodup_app; [exact Rn|exact Nl|]. intros j H1 H2. specialize (Hlt j H1). destruct (Hj j H2). lia.
    - intros j H. rewrite Hin in H. apply in_app_iff in H as [H|H]; [rewrite Hob by exact H; apply Ra, H|].
      destruct (Hj j H) as (_ & _ & o & E & _). congruence. }
  split; [split; [exact Ht|split; [split; [exact R|]|]]|].
  - intros i o j H1 H2 H3. rewrite Hin in H1. rewrite Hin. apply in_app_iff. left. apply in_app_iff in H1 as [H1|H1].
    + rewrite Hob in H2 by exact H1. eapply Hi; eauto.
    + destruct (Hj i H1) as (_ & _ & o' & E & _ & H4). rewrite E in H2. injection H2 as <-. destruct (H4 j H3) as [-> | ->]; assumption.
  - intros j H1 H2 (i & oi & Hii & N & Hoi & Hr). rewrite Hin in Hii. apply in_app_iff in Hii as [Hii|Hii].
    + rewrite Hob in Hoi by exact Hii. assert (Hjj := Hi i oi j Hii Hoi Hr). apply (Hu j Hjj); [|exists i, oi; auto].
      destruct H2 as (oj & E & E'). exists oj. split; [rewrite <- Hob by exact Hjj; exact E|exact E'].
    + destruct (Hj i Hii) as (_ & _ & o' & E & _ & H4). rewrite E in Hoi. injection Hoi as <-.
      destruct H2 as (oj & E1 & E2). destruct (H4 j Hr) as [-> | ->].
      * apply Nc. exists oj. split; [rewrite <- Hob by exact Ic; exact E1|exact E2].
      * apply Nm. exists oj. split; [rewrite <- Hob by exact Im; exact E1|exact E2].
  - split; [exact Hl|]. split; [|split; [|split]].
    + intros j o H1 _. destruct (Hold j F (obj_of_lt _ _ _ H1)) as [E1 E2]. split; [congruence|]. split; [exact E2|]. intros H. rewrite Hin. apply in_app_iff. auto.
    + intros j H1. rewrite Hin in H1. apply in_app_iff in H1 as [H1|H1].
      * left. split; [exact H1|]. intros o. rewrite Hob by exact H1. auto.
      * right. right. destruct (Hj j H1) as (_ & _ & o & E & E' & _). exists o. auto.
    + intros j o H1 H2. destruct (Hold j F H2) as [E1 _]. congruence.
    + intros j (i & oi & Hii & N & Hoi & Hr). rewrite Hin in Hii. apply in_app_iff in Hii as [Hii|Hii].
      * left. rewrite Hob in Hoi by exact Hii. exists i, oi. auto.
      * right. destruct (Hj i Hii) as (_ & _ & o' & E & _ & H4). rewrite E in Hoi. injection Hoi as <-. auto.
Qed.

(** t(s) with one repeated symbol x *)
Lemma runs_trace w t s i h om G x p q : form w -> tensor_value w n m c t i h -> length s = length i -> valid_cfg i ->
  obj_of w0 m = Some om -> metric_tables n om c G ->
  count String.eqb x s = 2 -> (forall y, y <> x -> count String.eqb y s <= 1) -> occurrences s x = [p; q] ->
  runs w (calc_call t s) (fun z w' => tens w' z (without s [x]) (indices_without s i [x])
    (fun f => nsum n (fun k => nsum n (fun l => kmul (aget (G (- nth p i 0) (- nth q i 0))%Z [k; l]) (h (trace_index s [x] [k] [l] f)))))).
Proof.
  intros F (k & o & a & Hk & Nk & Ho & Mo & Ei & Ro & Sd & (Ca & Ra & Va)) Ls V Hom HG Hx Hy Hocc.
  assert (Lm := s_lt_m w0 n m c name xs g gi HS). assert (Hom' := proj1 (form_old w0 m c w m F Lm)).
  destruct (trace_full (fun w' => form w' /\ grow w w') (fun _ => True) w t k o m om c n G a s) as (D' & z & w' & t' & o' & b & E & [[F' Gr] _] & (k' & Hk' & Nk') & Nd & HD & -> & Ho' & Mo' & Ei' & Ro' & Sd' & Cb & Rb & Vb);
    try assumption; try congruence; try (intros; exact I).
  - intros w1 sy i' r [F1 G1]. split; [eapply form_fresh; eauto|eapply grow_trans; [exact G1|apply grow_fresh]].
  - split; [exact F|apply grow_refl].
  - apply (form_pos w0 n m c name xs g gi HS).
  - apply F.
  - apply (form_system w0 n m c name xs g gi HS w F).
  - intros y. destruct (string_dec y x) as [->|N]; [lia|]. specialize (Hy y N). lia.
  - assert (ED : D' = [x]).
    { assert (Ix : In x D') by (apply HD, Hx).
      assert (Ha : forall y, In y D' -> y = x) by (intros y H; apply HD in H; destruct (string_dec y x) as [|N]; [assumption|specialize (Hy y N); lia]).
      clear - Nd Ix Ha. destruct D' as [|y [|y' D']]; [destruct Ix|rewrite (Ha y (or_introl eq_refl)); reflexivity|exfalso].
      inversion Nd as [|? ? N1 _]; subst. apply N1. left. rewrite (Ha y), (Ha y'); [reflexivity|right; left; reflexivity|left; reflexivity]. }
    subst D'. clear HD Nd. rewrite Ei in *. exists (mkCalc (Some t') (without s [x]) RTensor), w'. split; [exact E|]. split; [exact F'|]. split; [exact Gr|].
    split; [reflexivity|]. exists t', k', o', b.
    assert (Nw : NoDup (without s [x])).
    { apply NoDup_count_occ with (decA := string_dec). intros y.
      assert (Hc : forall l, count_occ string_dec l y = count String.eqb y l).
      { clear. induction l as [|z l IH]; [reflexivity|]. cbn [count_occ]. unfold count in *. cbn [filter]. rewrite String.eqb_sym.
        destruct (string_dec z y) as [->|N]; [rewrite String.eqb_refl; cbn [length]; rewrite IH; reflexivity|].
        destruct (String.eqb_spec z y); [contradiction|]. exact IH. }
      rewrite Hc. destruct (string_dec y x) as [->|N]; [rewrite count_gone; [lia|left; reflexivity]|].
      rewrite count_without by (intros [H|[]]; congruence). apply Hy, N. }
    split.
    { split; [reflexivity|]. split; [reflexivity|]. split; [exact Ho'|]. split; [exact Nw|]. cbn [c_syms]. rewrite Ei'.
      split; [rewrite indices_without_length by auto; reflexivity|]. split; [congruence|]. apply indices_without_valid, V. }
    split; [exact Hk'|]. split; [exact Nk'|]. split; [exact Mo'|]. split; [exact Ei'|]. split; [exact Sd'|]. split; [exact Cb|]. split; [congruence|].
    intros f Hf. rewrite (Vb f Hf). cbn [length]. rewrite lsum_tuples_1. apply nsum_ext. intros k1 Hk1. rewrite lsum_tuples_1. apply nsum_ext. intros l1 Hl1.
    cbn [trace_factor]. rewrite Hocc. cbn [nth]. rewrite Va; [ring|].
    split; [unfold trace_index; rewrite map_length, seq_length; exact Ls|]. apply Forall_forall. intros v Hv. unfold trace_index in Hv.
    apply in_map_iff in Hv as (q' & <- & Hq'). apply in_seq in Hq'. set (y := nth q' s ""%string).
    assert (Iy : In y s) by (apply nth_In; lia).
    assert (Hr : forall z, z < n -> assign [x] [z] f y < n).
    { intros z Hz. unfold assign. cbn [index_of]. destruct (String.eqb_spec y x) as [Exy|N]; [cbn [nth]; exact Hz|]. apply Hf.
      apply without_in. split; [exact Iy|]. intros [H|[]]. congruence. }
    destruct (existsb (String.eqb y) (firstn q' s)); apply Hr; assumption.
Qed.

(** Calc(x, nm, sy, indices). *)
Lemma result_run_as nm sy w x s i F req i' : nm <> "TEMP"%string -> form w -> tens w x s i F -> (req = [] \/ Permutation s req) ->
  let order := match req with [] => s | _ => req end in
  same_indices s i order i' ->
  exists r b w', run_calc x nm sy req w = (Ok r, w') /\ good w' /\ adds [r] w0 w' /\ length (heap w0) <= r /\
    In r (insts w') /\ ~ used w' r /\ cls_of w' r = Some CTensor /\ obj_of w' r = Some (tobj nm sy i' c m b) /\
    cubic n b /\ rank b = length i' /\ valid_cfg i' /\ length order = length i' /\
    (forall f, (forall y, In y order -> f y < n) -> keq (aget b (map f order)) (F f)).
Proof.
  intros Hnm Fw T Hreq order Hi. destruct (form_good w Fw) as [Gw Aw].
  assert (SW := session_adds _ _ Gw Aw). assert (Hsys : coordinate_system w c n) by apply SW.
  destruct (tens_get w0 n m c name xs g gi HS _ _ _ _ _ Fw T) as (t1 & k1 & o1 & a1 & X1 & K1 & N1 & M1 & E1 & S1 & C1 & Ca1 & R1 & Rl1 & Y1 & G1 & V1).
  destruct (run_create w x t1 o1 m c n a1 nm sy req) as (i2 & b & Hi2 & Vi & Cb & Rb & Vb & E); try assumption.
  - apply Fw.
  - exists k1. auto.
  - rewrite Y1. exact Hreq.
  - rewrite Y1 in *. fold order in Hi2, Vb, E. rewrite E1 in Hi2.
    assert (No : NoDup order).
    { unfold order. assert (Ns : NoDup s) by (destruct X1 as (_ & _ & _ & H & _); rewrite <- Y1; exact H).
      destruct Hreq as [->|H]; [exact Ns|]. destruct req; [exact Ns|]. eapply Permutation_NoDup; eauto. }
    assert (i2 = i') by (eapply same_indices_unique; eauto). subst i2. clear Hi2.
    assert (Gf : good (fresh_world w CTensor (tobj nm sy i' c m b))).
    { apply good_fresh; try apply SW. exact Gw. }
    destruct Gf as (Tf & If & Uf). destruct (passes_total 2 (fresh_world w CTensor (tobj nm sy i' c m b)) (proj1 If) Uf) as (w' & E' & R' & Kl).
    assert (Gf : good (fresh_world w CTensor (tobj nm sy i' c m b))) by (split; auto).
    assert (Gw' := good_cleaned _ _ Gf Kl R'). assert (Ad := adds_trans m c _ _ _ _ _ (proj1 If) Aw (adds_fresh m c w CTensor (tobj nm sy i' c m b) (proj1 (proj1 (proj2 Gw))) (tobj_refers _ _ _ _ _ _))).
    assert (Ad' := adds_trans m c _ _ _ _ _ R' Ad (adds_cleaned m c _ _ Kl)). cbn [app] in Ad'.
    exists (length (heap w)), b, w'. split; [rewrite E; rewrite (bind_ok _ _ tt _ _ E'); reflexivity|]. split; [exact Gw'|]. split; [exact Ad'|].
    split; [apply Fw|]. destruct Kl as (_ & Kc & Ks & Kb & Kf).
    destruct (Kf (length (heap w)) _ (obj_fresh_new _ _ _)) as [O1 O2]; [exact Hnm|].
    split; [apply O2; cbn [fresh_world insts]; apply in_app_iff; right; left; reflexivity|]. split.
    { intros (j & oj & Hj & Nj & Hoj & Hr). assert (Hj' := subseq_in _ _ _ Ks Hj). cbn [fresh_world insts] in Hj'. apply in_app_iff in Hj' as [Hj'|[Hj'|[]]]; [|congruence].
      apply Kb in Hoj. rewrite obj_of_fresh in Hoj. destruct (Nat.eqb_spec j (length (heap w))); [congruence|].
      assert (Hlt := good_lt w j oj _ (proj1 (proj2 Gw)) Hj' Hoj Hr). lia. }
    split; [rewrite Kc; apply cls_fresh_new|]. split; [exact O1|]. split; [exact Cb|]. split; [exact Rb|]. split; [exact Vi|].
    split; [symmetry; apply Hi|].
    intros f Hf. rewrite (Vb f Hf). apply V1. intros y Hy. apply Hf. unfold order. destruct Hreq as [->|H]; [exact Hy|].
    destruct req; [exact Hy|]. eapply Permutation_in; eauto.
Qed.

Lemma result_run w x s i F req i' : form w -> tens w x s i F -> (req = [] \/ Permutation s req) ->
  let order := match req with [] => s | _ => req end in
  same_indices s i order i' ->
  exists r b w', run_calc x "Result" "" req w = (Ok r, w') /\ good w' /\ adds [r] w0 w' /\ length (heap w0) <= r /\
    In r (insts w') /\ ~ used w' r /\ cls_of w' r = Some CTensor /\ obj_of w' r = Some (tobj "Result" "" i' c m b) /\
    cubic n b /\ rank b = length i' /\ valid_cfg i' /\ length order = length i' /\
    (forall f, (forall y, In y order -> f y < n) -> keq (aget b (map f order)) (F f)).
Proof. apply result_run_as. discriminate. Qed.

(** The published tensor and the clean-up. *)
Lemma finish_run w k nm a i' sy r : good w -> adds [r] w0 w -> length (heap w0) <= r -> In r (insts w) -> ~ used w r ->
  (exists o, obj_of w r = Some o /\ o_name o <> "TEMP"%string) ->
  nm <> "TEMP"%string -> cubic n a -> rank a = length i' -> valid_cfg i' ->
  exists t w', (let! o := getobj m in let! t := make_tensor k nm a (Some m) (o_coords o) i' sy in finish_calc r ;; mret t) w = (Ok t, w') /\
    good w' /\ adds [t] w0 w' /\ length (heap w0) <= t /\ In t (insts w') /\ cls_of w' t = Some k /\ obj_of w' t = Some (tobj nm sy i' c m a).
Proof.
  intros Gw Aw Hr Ir Ur (or & Hor & Nor) Hnm Ca Ra Vi. assert (SW := session_adds _ _ Gw Aw).
  assert (SW' := SW). destruct SW' as (_ & _ & _ & _ & Hsys & Ic & Nc & _ & Hm & Im & Nm & _ & _ & om & G & Hom & _ & _ & _ & _ & (Cm & _) & _).
  set (wf := fresh_world w k (tobj nm sy i' c m a)).
  assert (Gf : good wf) by (apply good_fresh; try assumption; apply Hsys).
  destruct Gf as (Tf & If & Uf). destruct (passes_total 1 wf (proj1 If) Uf) as (w1 & E1 & R1 & Kl).
  assert (Ep : pass (if_named "TEMP" (fun i => delete i true)) wf = (Ok tt, w1)).
  { cbn [times] in E1. apply bind_inv in E1 as (u & w2 & E2 & E3). destruct u. unfold mret in E3. injection E3 as <-. exact E2. }
  assert (G1 := good_cleaned _ _ (conj Tf (conj If Uf)) Kl R1).
  assert (Ad := adds_trans m c _ _ _ _ _ (proj1 If) Aw (adds_fresh m c w k (tobj nm sy i' c m a) (proj1 (proj1 (proj2 Gw))) (tobj_refers _ _ _ _ _ _))). fold wf in Ad.
  assert (Ad' := adds_trans m c _ _ _ _ _ R1 Ad (adds_cleaned m c _ _ Kl)). cbn [app] in Ad'.
  assert (Kl' := Kl). destruct Kl' as (Kh & Kc & Ks & Kb & Kf).
  assert (Hrl : r < length (heap w)) by (eapply obj_of_lt, Hor).
  destruct (Kf r or) as [R2 R3]; [apply obj_fresh_old, Hor|exact Nor|].
  assert (Ir1 : In r (insts w1)) by (apply R3; cbn [wf fresh_world insts]; apply in_app_iff; auto).
  assert (Ur1 : ~ used w1 r).
  { intros (j & oj & Hj & Nj & Hoj & Hrf). apply Kb in Hoj. assert (Hj' := subseq_in _ _ _ Ks Hj).
    unfold wf in Hoj. rewrite obj_of_fresh in Hoj. destruct (Nat.eqb_spec j (length (heap w))) as [->|Nl].
    - injection Hoj as <-. assert (Lc := s_lt_c w0 n m c name xs g gi HS). assert (Lm := s_lt_m w0 n m c name xs g gi HS).
      apply tobj_refers in Hrf as [-> | ->]; lia.
    - apply Ur. exists j, oj. cbn [wf fresh_world insts] in Hj'. apply in_app_iff in Hj' as [Hj'|[Hj'|[]]]; [|congruence]. auto. }
  destruct (delete_unused w1 r true R1 Ir1 Ur1) as (w2 & E2 & Rm).
  destruct (Kf (length (heap w)) (tobj nm sy i' c m a) (obj_fresh_new _ _ _) Hnm) as [T1 T2].
  assert (Hh := delete_heap w1 r true). rewrite E2 in Hh. cbn [snd] in Hh.
  assert (Ad2 := adds_removed m c _ _ _ _ _ Hr (proj1 R1) Hh Ad' Rm).
  assert (Nrt : length (heap w) <> r) by lia.
  exists (length (heap w)), w2. split; [|split; [|split; [|split; [|split; [|split]]]]].
  - rewrite (bind_ok _ _ om w w) by (apply getobj_ok, Hom). rewrite Cm.
    rewrite (bind_ok _ _ _ _ _ (make_tensor_ok w k nm a m c i' sy n Hm Hsys Ca Vi (eq_sym Ra))). fold wf.
    unfold finish_calc. rewrite (bind_ok _ _ tt wf w2); [reflexivity|]. rewrite (bind_ok _ _ tt wf w1 Ep). exact E2.
  - eapply good_removed; [exact G1|exact Rm|exact Ur1].
  - cbn [filter app] in Ad2. rewrite Nat.eqb_refl in Ad2. cbn [negb] in Ad2. destruct (Nat.eqb_spec (length (heap w)) r); [contradiction|]. exact Ad2.
  - lia.
  - apply (removed_in w1 r w2 _ (proj1 R1) Rm). split; [|exact Nrt]. apply T2. cbn [wf fresh_world insts]. apply in_app_iff. right; left; reflexivity.
  - destruct Rm as (_ & _ & _ & H). rewrite H, Kc. apply cls_fresh_new.
  - destruct Rm as (_ & _ & H & _). rewrite H by exact Nrt. exact T1.
Qed.

(** The outcome of a curvature function. *)
Definition outcome (p : M oid) (nm : string) (i : list Z) (h : list nat -> K) : Prop :=
  exists t w', p w0 = (Ok t, w') /\ good w' /\ adds [t] w0 w' /\ length (heap w0) <= t /\ In t (insts w') /\ named w' nm t /\
    tensor_value w' n m c t i h.

(** Calc, reading in the configuration of the result, publishing and clean-up in one. *)
Lemma end_run w (x : calc) s i F req i' k nm sy get h :
  form w -> tens w x s i F -> (req = [] \/ Permutation s req) ->
  let order := match req with [] => s | _ => req end in
  same_indices s i order i' -> nm <> "TEMP"%string -> k <> CCoordinates -> (get = None \/ get = Some i') ->
  (forall idx, in_range n (length i') idx -> exists f, map f order = idx /\ (forall y, In y order -> f y < n) /\ keq (F f) (h idx)) ->
  exists t w', (let! r := run_calc x "Result" "" req in let! a := get_components r None get in
      let! o := getobj m in let! t := make_tensor k nm a (Some m) (o_coords o) i' sy in finish_calc r ;; mret t) w = (Ok t, w') /\
    good w' /\ adds [t] w0 w' /\ length (heap w0) <= t /\ In t (insts w') /\ named w' nm t /\ tensor_value w' n m c t i' h.
Proof.
  intros Fw T Hreq order Hi Hnm Hk Hget Hh.
  destruct (result_run w x s i F req i' Fw T Hreq Hi) as (r & b & w1 & E1 & G1 & A1 & Lr & Ir & Ur & Kr & Or & Cb & Rb & Vi & Lo & Vb).
  fold order in Lo, Vb. assert (SW := session_adds _ _ G1 A1). assert (Hsys : coordinate_system w1 c n) by apply SW.
  assert (Eg : get_components r None get w1 = (Ok b, w1)).
  { assert (H : get_components r (Some c) (Some i') w1 = (Ok b, w1)).
    { apply (stored_default_get w1 r CTensor (tobj "Result" "" i' c m b) c b); auto; [discriminate|apply tobj_stored|apply Hsys]. }
    destruct Hget as [-> | ->]; [rewrite (get_default w1 r _ c Or eq_refl); exact H|rewrite (get_default_coords w1 r _ c _ Or eq_refl); exact H]. }
  destruct (finish_run w1 k nm b i' sy r G1 A1 Lr Ir Ur) as (t & w2 & E2 & G2 & A2 & Lt & It & Kt & Ot); try assumption.
  { eexists. split; [exact Or|discriminate]. }
  exists t, w2. split; [rewrite (bind_ok _ _ _ _ _ E1), (bind_ok _ _ _ _ _ Eg); exact E2|]. split; [exact G2|]. split; [exact A2|]. split; [exact Lt|]. split; [exact It|].
  split; [eexists; split; [exact Ot|reflexivity]|]. exists k, (tobj nm sy i' c m b), b.
  split; [exact Kt|]. split; [exact Hk|]. split; [exact Ot|]. split; [reflexivity|]. split; [reflexivity|]. split; [reflexivity|]. split; [apply tobj_stored|].
  split; [exact Cb|]. split; [exact Rb|]. intros idx Hidx. destruct (Hh idx Hidx) as (f & <- & Hf & Ef). rewrite (Vb f Hf). exact Ef.
Qed.
End Ends.
