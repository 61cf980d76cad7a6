(** Calc and the functions that compute curvature keep the invariants of a session. *)
From Verif Require Import Alg Alg_P Arr Arr_P Spec UtilsM Arr2_P TensorM WorldM SpecWorld World_P Registry_P History_P CalcM SpecCalc Keep_P Calc_P Run_P Typed_P Self_P CurvM Session_P Session2_P Session3_P.
Local Open Scope nat_scope.

Section Session4.
Context {A : AlgOps}.
Implicit Types (G : list fact) (P : option oid -> Prop).

Lemma s_frame {X} G (m : M X) R : safe G m R -> safe G m (fun x => R x ++ filter durable G).
Proof.
  intros H w Gw S. specialize (H w Gw S). destruct (m w) as [[x|e] w']; [|exact H]. destruct H as (H1 & H2 & H3). split; [exact H1|]. split; [exact H2|].
  apply sat_app. split; [exact H3|]. eapply sat_eff; [apply good_ok, Gw|exact H2|exact S].
Qed.
Lemma gs_frame {X} G (m : M X) R : gsafe G m R -> gsafe G m (fun x => R x ++ G).
Proof.
  intros H w Gw S. specialize (H w Gw S). destruct (m w) as [[x|e] w']; [|exact H]. destruct H as (H1 & H2 & H3). split; [exact H1|]. split; [exact H2|].
  apply sat_app. split; [exact H3|]. eapply sat_geff; [apply good_ok, Gw|exact H2|exact S].
Qed.

Ltac bind_same := eapply s_gbind; [apply gs_same; first [apply same_mopt|apply same_default|apply same_need|apply same_symbols]|]; intros ?; cbn [app].
Ltac bind_get := eapply s_gbind; [apply gs_get|]; intros ?; cbn [app].
Ltac bind_lift := eapply s_gbind; [apply gs_lift|]; intros ?; cbn [app].
Ltac bind_opt := eapply s_gbind; [apply gs_opt|]; intros ?; cbn [app].

(** *** Calc *)
Definition res_of (name : string) P (r : oid) : list fact :=
  [Opnd (Some r) P; Held (Some r); OfCls (Some r) CTensor; Reg (if String.eqb name "TEMP" then None else Some r)].

Lemma s_run G c name symbol ind P : In (Opnd (c_tensor c) P) G -> safe G (run_calc c name symbol ind) (res_of name P).
Proof.
  intros H. unfold run_calc. cbv zeta. destruct (_ && _); [apply s_raise|].
  eapply s_gbind; [apply gs_mmap0; intros; apply same_mopt|]. intros p. cbn [app].
  eapply s_gbind; [apply (gs_tensor_of _ _ P), H|]. intros t. cbn [app].
  eapply s_gbind; [apply (gs_getobj _ _ P); inG|]. intros o. cbn [app].
  eapply s_gbind; [apply gs_mmap0; intros; apply same_mopt|]. intros i. cbn [app].
  bind_get. bind_lift.
  set (G0 := _ :: _).
  assert (M1 : In (Reg (o_metric o)) G0 /\ In (Reg (o_coords o)) G0 /\ In (Pure (P (o_metric o))) (filter durable G0)).
  { unfold G0. cbn [filter durable]. repeat split; inG. }
  clearbody G0. destruct M1 as (a1 & a2 & a3).
  assert (Q : safe G0 (let! r := make_tensor CTensor name (if 0 <? rank x0 then amap simp x0 else x0) (o_metric o) (o_coords o) i symbol in clean_temporaries ;; mret r)
    (fun r => [Opnd (Some r) (eq (o_metric o)); Held (Some r); OfCls (Some r) CTensor; Reg (if String.eqb name "TEMP" then None else Some r)])).
  { destruct (String.eqb_spec name "TEMP") as [->|N].
    - eapply s_gbind; [apply gs_make_reg; [discriminate|discriminate|exact a1|exact a2]|]. intros r.
      eapply s_bind; [apply s_clean|]. intros u. cbn [app filter durable newt]. apply s_ret. intros w _ S. facts; try (eapply sat_in; [|exact S]; inG). discriminate.
    - eapply s_pre; [eapply s_weak; [apply (s_made (Held (o_coords o) :: G0) CTensor); [discriminate|discriminate|right; exact a1|left; reflexivity|exact N|apply s_clean|]|]|].
      + intros w t' o' u w' Gw Ht Ho En S L Hj Ep. destruct (times_cleaned 2 w (Ok u) w' Ep) as (_ & _ & _ & _ & C).
        destruct (C t' o' Ho ltac:(congruence)) as [C6 C7]. auto.
      + intros r w _ S. unfold made in S. facts; (eapply sat_in; [|exact S]); inG.
      + intros w Gw S. constructor; [|exact S]. eapply reg_held; eauto. }
  eapply s_weak; [apply s_frame, Q|]. intros r w _ S. cbv beta in S. unfold res_of.
  assert (Hp : sem (Pure (P (o_metric o))) w) by (eapply sat_in; [|exact S]; apply in_app_iff; right; exact a3). cbn in Hp.
  assert (X : sem (Opnd (Some r) (eq (o_metric o))) w) by (eapply sat_in; [|exact S]; inG).
  facts; try (eapply sat_in; [|exact S]; inG).
  intros u U. destruct (X u U) as (X1 & X2 & X3).
  split; [exact X1|]. split; [exact X2|]. intros oo Hoo. rewrite <- (X3 oo Hoo). exact Hp.
Qed.

(** *** Objects found by name *)
Lemma first_named_in name l : forall w x w', first_named name l w = (Ok (Some x), w') -> In x l.
Proof.
  induction l as [|i l IH]; intros w x w'; cbn [first_named]; [discriminate|]. unfold mbind, getobj. destruct (obj_of w i) as [o|]; [|discriminate].
  destruct (String.eqb _ _); [|intros E; right; eapply IH, E]. intros E. injection E as <- _. left; reflexivity.
Qed.
Definition registered (t : oid) : list fact := [Reg (Some t); Held (Some t)].
Lemma gs_find G name : gsafe G (find_named name) (fun x => [Reg x; Held x]).
Proof.
  intros w Gw S. unfold find_named. pose proof (same_first name (insts w) w) as E. destruct (first_named name (insts w) w) as [[x|e] w'] eqn:F; cbn in E; subst w'.
  2:{ split; [exact Gw|apply geff_refl]. }
  split; [exact Gw|]. split; [apply geff_refl|].
  assert (Sr : sem (Reg x) w) by (intros t ->; eapply first_named_in, F).
  facts; [exact Sr|]. eapply (reg_held [Reg x]); [left; reflexivity|exact Gw|]. facts. exact Sr.
Qed.

(** *** The copy of a metric *)
Definition inverse_factor (m : oid) : M calc :=
  let! inv := copy_object m in
  change_default_indices inv [1; 1]%Z ;;
  (let! oi := getobj inv in put inv (set_name "TEMP" oi)) ;;
  let! c1 := calc_call inv ["lambda"; "sigma"]%string in
  calc_mul c1 (OScalar (kinvn 2)).

Lemma carried_trans w1 w2 w3 : carried w1 w2 -> carried w2 w3 -> carried w1 w3.
Proof.
  intros [a1 a2] [b1 b2]. split; [intros; congruence|]. intros i o' H. destruct (b2 i o' H) as (o2 & H2 & E1 & E2).
  destruct (a2 i o2 H2) as (o1 & H1 & E3 & E4). exists o1. repeat split; congruence.
Qed.

Lemma indices_carried w t i : typed w -> carried w (snd (change_default_indices t i w)).
Proof.
  intros Hty. unfold change_default_indices. unfold mbind at 1, getobj. destruct (obj_of w t) as [o|] eqn:Eo; [|apply carried_refl].
  unfold mbind at 1, mlift. destruct (validate_indices _ _ _); [|apply carried_refl].
  destruct (o_coords o) as [c|]; [|apply carried_refl]. unfold mbind at 1, mopt, mret. unfold mbind at 1.
  pose proof (check_rep_keep w Hty t c i w (kept_refl w)) as H. destruct (check_representation t c i w) as [[b|e] w'].
  2:{ exact (kept_carried _ _ H). }
  destruct b; [|exact (kept_carried _ _ H)].
  unfold mbind, getobj. destruct (obj_of w' t) as [o'|] eqn:Eo'; [|exact (kept_carried _ _ H)].
  eapply carried_trans; [exact (kept_carried _ _ H)|]. apply (put_carried _ _ _ _ Eo'); reflexivity.
Qed.

(** A part that keeps the attributes of all objects. *)
Definition plain {X} (m : M X) : Prop := forall w, good w -> good (snd (m w)) /\ geff w (snd (m w)) /\ carried w (snd (m w)).
Lemma plain_bind {X Y} (m : M X) (k : X -> M Y) : plain m -> (forall x, plain (k x)) -> plain (mbind m k).
Proof.
  intros H1 H2 w Gw. destruct (H1 w Gw) as (a1 & a2 & a3). unfold mbind. destruct (m w) as [[x|e] w1]; cbn [snd] in *; [|auto].
  destruct (H2 x w1 a1) as (b1 & b2 & b3). split; [exact b1|]. split; [eapply geff_trans; eauto using good_ok|eapply carried_trans; eauto].
Qed.
Lemma plain_same {X} (m : M X) : (forall w, snd (m w) = w) -> plain m.
Proof. intros H w Gw. rewrite H. split; [exact Gw|]. split; [apply geff_refl|apply carried_refl]. Qed.
Lemma plain_op {X} (m : M X) o : (forall w, snd (m w) = snd (run_op o w)) -> (forall t s, o <> OpDelete t s) -> (forall w, live_args w o) ->
  (forall w, typed w -> carried w (snd (m w))) -> plain m.
Proof.
  intros E D L C w Gw. specialize (C w (good_typed _ Gw)). destruct (run_op_good w o Gw (L w)) as (H1 & _ & H2). rewrite <- E in H1, H2. auto.
Qed.
Lemma plain_get t c i : plain (get_components t c i).
Proof.
  apply (plain_op _ (OpGet t c i)); [|discriminate|intros; exact I|].
  - intros w. cbn [run_op]. unfold mbind. destruct (get_components t c i w) as [[x|e] w']; reflexivity.
  - intros w Hty. destruct (get_components t c i w) as [r w'] eqn:E. apply kept_carried. eapply get_components_kept; eauto.
Qed.


Lemma two_then {X} (a b : M unit) (k : M X) c v : (forall v, k v = (Ok c, v)) ->
  (a ;; b ;; k) v = match (a ;; b) v with (Ok _, v') => (Ok c, v') | (Err e, v') => (Err e, v') end.
Proof. intros H. unfold mbind. destruct (a v) as [[x|e] v1]; [|reflexivity]. destruct (b v1) as [[y|e] v2]; [apply H|reflexivity]. Qed.

Lemma gs_inverse G m P : In (Opnd (Some m) P) G -> gsafe G (inverse_factor m) (fun c => out P (c_tensor c)).
Proof.
  intros H w Gw S. unfold inverse_factor, copy_object. pose proof (gs_getobj G m P H w Gw S) as Q.
  unfold mbind at 1. unfold mbind at 1. destruct (getobj m w) as [[o|e] w0] eqn:Eg; [|exact Q].
  assert (Hw : w0 = w) by (unfold getobj in Eg; destruct (obj_of w m); [injection Eg as _ <-|discriminate Eg]; reflexivity). subst w0.
  assert (Ho : obj_of w m = Some o) by (unfold getobj in Eg; destruct (obj_of w m) as [o'|] eqn:Em; [injection Eg as ->; reflexivity|discriminate Eg]).
  destruct Q as (_ & _ & Q). cbv beta in Q.
  assert (Rm : sem (Reg (o_metric o)) w) by (eapply sat_in; [|exact Q]; inG).
  assert (Rc : sem (Reg (o_coords o)) w) by (eapply sat_in; [|exact Q]; inG).
  assert (Hp : sem (Pure (P (o_metric o))) w) by (eapply sat_in; [|exact Q]; inG). cbn in Hp. clear Q.
  cbv beta. destruct (cls_of w m) as [k|] eqn:Ek; [|split; [exact Gw|apply geff_refl]].
  set (n := length (heap w)). set (w1 := mkW (heap w ++ [(k, Some o)]) (insts w)).
  assert (Ob : forall j, obj_of w1 j = if j =? n then Some o else obj_of w j).
  { intros j. unfold obj_of, w1. cbn [heap]. destruct (Nat.eqb_spec j n) as [->|N].
    - rewrite nth_error_app2 by apply le_n. unfold n. rewrite Nat.sub_diag. reflexivity.
    - destruct (Nat.ltb_spec j n) as [L|L]; [rewrite nth_error_app1 by exact L; reflexivity|].
      rewrite (proj2 (nth_error_None _ _)) by (rewrite app_length; cbn; unfold n in *; lia).
      rewrite (proj2 (nth_error_None _ _)) by exact L. reflexivity. }
  assert (Cl : forall j x, cls_of w j = Some x -> cls_of w1 j = Some x).
  { intros j x Hx. unfold cls_of, w1 in *. cbn [heap]. destruct (nth_error (heap w) j) eqn:E; [|discriminate]. rewrite nth_error_app1 by (apply nth_error_Some; congruence). rewrite E. exact Hx. }
  assert (Cn : cls_of w1 n = Some k).
  { unfold cls_of, w1. cbn [heap]. rewrite nth_error_app2 by apply le_n. unfold n. rewrite Nat.sub_diag. reflexivity. }
  assert (Cb : forall j, j <> n -> cls_of w1 j = cls_of w j).
  { intros j N. unfold cls_of, w1. cbn [heap]. destruct (Nat.ltb_spec j n) as [L|L]; [rewrite nth_error_app1 by exact L; reflexivity|].
    rewrite (proj2 (nth_error_None _ _)) by (rewrite app_length; cbn; unfold n in *; lia).
    rewrite (proj2 (nth_error_None _ _)) by exact L. reflexivity. }
  assert (Nr : forall j, In j (insts w) -> j <> n) by (intros j Hj E; pose proof (registered_lt _ _ (good_ok _ Gw) Hj); unfold n in E; lia).
  assert (G1 : good w1).
  { split.
    - destruct (g_int _ Gw) as [[Hn Ha] Hr]. split; [split; [exact Hn|]|].
      + intros j Hj. rewrite Ob. destruct (Nat.eqb_spec j n); [discriminate|apply Ha, Hj].
      + intros j oj x Hj. rewrite Ob. destruct (Nat.eqb_spec j n) as [E|_]; [exfalso; exact (Nr j Hj E)|]. apply Hr, Hj.
    - destruct (g_snd _ Gw) as [T K]. split.
      + intros j oj. rewrite Ob. assert (Q : forall i oi, obj_of w i = Some oi -> (forall x, o_metric oi = Some x -> cls_of w1 x = Some CMetric) /\ (forall c, o_coords oi = Some c -> cls_of w1 c = Some CCoordinates)).
        { intros i oi Hi. destruct (T i oi Hi). split; intros; apply Cl; auto. }
        destruct (Nat.eqb_spec j n) as [_|_]; [intros E; injection E as <-; apply (Q m), Ho|apply Q].
      + intros j oj. rewrite Ob. destruct (Nat.eqb_spec j n) as [->|N]; [|rewrite (Cb j N); apply K].
        intros E. injection E as <-. rewrite Cn. intros C. apply (K m o Ho). rewrite Ek. exact C.
    - intros j oj Hj. rewrite Ob. destruct (Nat.eqb_spec j n) as [E|N]; [exfalso; exact (Nr j Hj E)|]. rewrite (Cb j N). apply (g_self _ Gw), Hj.
    - intros j oj. rewrite Ob. destruct (Nat.eqb_spec j n) as [->|N]; [|rewrite (Cb j N); apply (g_rank _ Gw)].
      intros E. injection E as <-. destruct (g_rank _ Gw m o Ho) as [Q1 Q2]. split; [exact Q1|]. rewrite Cn. intros C. apply Q2. rewrite Ek. exact C.
    - intros j oj. rewrite Ob. unfold Home_P.other_class. destruct (Nat.eqb_spec j n) as [->|N]; [|rewrite (Cb j N); apply (g_home _ Gw)].
      intros E. injection E as <-. rewrite Cn, <- Ek. apply (g_home _ Gw m o Ho).
    - intros j oj. rewrite Ob. unfold Home_P.other_class. destruct (Nat.eqb_spec j n) as [->|N]; [|rewrite (Cb j N); apply (g_key _ Gw)].
      intros E. injection E as <-. rewrite Cn, <- Ek. apply (g_key _ Gw m o Ho). }
  assert (E1 : geff w w1).
  { split; [constructor|apply incl_refl].
    - unfold w1. cbn [heap]. rewrite app_length. lia.
    - exact Cl.
    - auto.
    - intros j oj L. rewrite Ob. destruct (Nat.eqb_spec j n); [unfold n in *; lia|]. eauto.
    - auto. }
  cbv beta iota. fold n. 
  set (rest := change_default_indices n [1%Z; 1%Z] ;; _).
  (* the part before the product *)
  assert (B : match rest w1 with
              | (Ok c, w') => good w' /\ geff w1 w' /\ sat (out P (c_tensor c)) w'
              | (Err _, w') => good w' /\ geff w1 w' end).
  { unfold rest. clear rest.
    assert (P1 : plain (change_default_indices n [1; 1]%Z)).
    { apply (plain_op _ (OpIndices n [1; 1]%Z)); [reflexivity|discriminate|intros; exact I|intros; apply indices_carried; assumption]. }
    assert (P2 : plain (let! oi := getobj n in put n (set_name "TEMP" oi))).
    { apply (plain_op _ (OpName n (VStr "TEMP"))); [reflexivity|discriminate|intros; exact I|]. intros v _. unfold mbind, getobj.
      destruct (obj_of v n) as [on|] eqn:En; [|apply carried_refl]. apply (put_carried _ _ _ _ En); reflexivity. }
    unfold mbind at 1. destruct (P1 w1 G1) as (g2 & e2 & c2). destruct (change_default_indices n [1; 1]%Z w1) as [[u|e] w2]; cbn [snd] in *; [|split; [exact g2|exact e2]].
    unfold mbind at 1. destruct (P2 w2 g2) as (g3 & e3 & c3). destruct ((let! oi := getobj n in put n (set_name "TEMP" oi)) w2) as [[u'|e] w3]; cbn [snd] in *.
    2:{ split; [exact g3|]. eapply geff_trans; eauto using good_ok. }
    pose proof (geff_trans _ _ _ e2 e3 (good_ok _ G1)) as E3. pose proof (carried_trans _ _ _ c2 c3) as C3.
    set (chk := fun v : world => match cls_of v n with None | Some CCoordinates => (Err ETypeError, v) | _ => (Ok tt, v) end).
    assert (Ecall : calc_call n ["lambda"; "sigma"]%string = (chk ;; (let! o := getobj n in let! a := get_components n None None in mlift (validate_indices (VTuple (o_indices o)) (Some (rank a)) None)) ;;
      let! (t, syms) := mfold trace_step ["lambda"; "sigma"]%string (Some n, ["lambda"; "sigma"]%string) in mret (mkCalc t syms RTensor))) by reflexivity.
    assert (Etr : forall v, mfold trace_step ["lambda"; "sigma"]%string (Some n, ["lambda"; "sigma"]%string) v = (Ok (Some n, ["lambda"; "sigma"]%string), v)) by reflexivity.
    assert (P4 : plain (chk ;; (let! o := getobj n in let! a := get_components n None None in mlift (validate_indices (VTuple (o_indices o)) (Some (rank a)) None)))).
    { apply plain_bind; [apply plain_same; intros v; unfold chk; destruct (cls_of v n) as [[]|]; reflexivity|]. intros _.
      apply plain_bind; [apply plain_same, same_getobj|]. intros oo. apply plain_bind; [apply plain_get|]. intros a. apply plain_same. intros v. unfold mlift. destruct (validate_indices _ _ _); reflexivity. }
    destruct (P4 w3 g3) as (g4 & e4 & c4).
    assert (Ecw : calc_call n ["lambda"; "sigma"]%string w3 = match (chk ;; (let! o := getobj n in let! a := get_components n None None in mlift (validate_indices (VTuple (o_indices o)) (Some (rank a)) None))) w3 with
      | (Ok _, v) => (Ok (mkCalc (Some n) ["lambda"; "sigma"]%string RTensor), v) | (Err e, v) => (Err e, v) end).
    { rewrite Ecall. apply two_then. intros v. unfold mbind at 1. rewrite Etr. reflexivity. }
    unfold mbind at 1. rewrite Ecw. destruct ((chk ;; _) w3) as [[u4|e] w4]; cbn [snd] in *.
    2:{ split; [exact g4|]. eapply geff_trans; eauto using good_ok. }
    pose proof (geff_trans _ _ _ E3 e4 (good_ok _ G1)) as E4. pose proof (carried_trans _ _ _ C3 c4) as C4.
    unfold calc_mul. cbn [c_role is_tensor_role negb]. unfold tensor_of at 1. cbn [c_tensor c_syms]. unfold mbind at 1. cbn [mret mopt]. unfold mbind at 1.
    pose proof (same_default n w4) as Ed. destruct (default_components n w4) as [[a|e] w5]; cbn in Ed; subst w5; [|split; [exact g4|exact E4]].
    unfold mbind at 1. destruct (getobj n w4) as [[on|e] w5] eqn:Eg5.
    2:{ pose proof (same_getobj n w4) as X. rewrite Eg5 in X. cbn in X. subst w5. split; [exact g4|exact E4]. }
    assert (Hon : obj_of w4 n = Some on /\ w5 = w4) by (unfold getobj in Eg5; destruct (obj_of w4 n) as [o'|]; [injection Eg5 as -> <-; auto|discriminate Eg5]).
    destruct Hon as [Hon ->]. destruct (proj2 C4 n on Hon) as (o1 & X1 & X2 & X3). rewrite Ob, Nat.eqb_refl in X1. injection X1 as <-.
    assert (RM : sem (Reg (o_metric on)) w4) by (rewrite X3; intros t Et; apply E4; unfold w1; cbn [insts]; apply Rm, Et).
    assert (RC : sem (Reg (o_coords on)) w4) by (rewrite X2; intros t Et; apply E4; unfold w1; cbn [insts]; apply Rc, Et).
    pose proof (gs_wrap [Reg (o_metric on); Reg (o_coords on); Pure (P (o_metric on))] (amap (kmul (kinvn 2)) a) on (o_indices on) ["lambda"; "sigma"]%string P
      ltac:(inG) ltac:(inG) ltac:(inG) w4 g4 ltac:(facts; [exact RM|exact RC|rewrite X3; exact Hp])) as F.
    destruct ((let! t := make_tensor CTensor "TEMP" (amap (kmul (kinvn 2)) a) (o_metric on) (o_coords on) (o_indices on) "T" in calc_init (Some t) ["lambda"; "sigma"]%string RTensor) w4) as [[c|e] w6].
    - destruct F as (f1 & f2 & f3). split; [exact f1|]. split; [eapply geff_trans; eauto using good_ok|exact f3].
    - destruct F as (f1 & f2). split; [exact f1|]. eapply geff_trans; eauto using good_ok. }
  destruct (rest w1) as [[c|e] w'].
  - destruct B as (b1 & b2 & b3). split; [exact b1|]. split; [eapply geff_trans; eauto using good_ok|exact b3].
  - destruct B as (b1 & b2). split; [exact b1|]. eapply geff_trans; eauto using good_ok.
Qed.

End Session4.
