(** Concrete sessions of public calls. *)
From Coq Require Import QArith.
From Verif Require Import Alg Arr Arr_P Spec TensorM WorldM SpecWorld CalcM CurvM GeodM LineM InfoM CurveM ShowM Base LexM ParseM InterpM ExportM Inst Ex ExWorld ExExport InstCurve Witness_World_P Session_P SpecSession Session8_P.
Import List.
Local Open Scope nat_scope.

(** t("a") of the vector, and the CalcObject it gives. *)
Definition ex_call1 : @call PolyOps := CallIndices 3 ["a"%string].
Definition ex_s1 : @world PolyOps := snd (run_call ex_call1 ex_w).
Definition ex_k1 : list calc := after ex_call1 (fst (run_call ex_call1 ex_w)) [].
Definition ex_x : calc := hd (mkCalc None [] RTensor) ex_k1.
(** 2 * that, then Calc of it. *)
Definition ex_call2 : @call PolyOps := CallMul ex_x (OScalar (pz 2 : @K PolyOps)).
Definition ex_s2 : @world PolyOps := snd (run_call ex_call2 ex_s1).
Definition ex_k2 : list calc := after ex_call2 (fst (run_call ex_call2 ex_s1)) ex_k1.
Definition ex_y : calc := hd (mkCalc None [] RTensor) ex_k2.
Definition ex_call3 (name : string) : @call PolyOps := CallCalc ex_y name "W" [].
Definition ex_s3 name : @world PolyOps := snd (run_call (ex_call3 name) ex_s2).

Lemma ex_session0 : session ex_w [].
Proof. apply reachable_session, ex_w_reachable. Qed.
Lemma ex_ok1 : call_ok ex_w [] ex_call1.
Proof. left. vm_compute. auto. Qed.
Lemma ex_session1 : session ex_s1 ex_k1.
Proof. apply (session_call ex_w [] ex_call1); [apply ex_session0|apply ex_ok1]. Qed.
Lemma ex_k1_x : ex_k1 = [ex_x].
Proof. vm_compute. reflexivity. Qed.
Lemma ex_ok2 : call_ok ex_s1 ex_k1 ex_call2.
Proof. split; [rewrite ex_k1_x; left; reflexivity|exact I]. Qed.
Lemma ex_session2 : session ex_s2 ex_k2.
Proof. apply (session_call ex_s1 ex_k1 ex_call2); [apply ex_session1|apply ex_ok2]. Qed.
Lemma ex_k2_y : ex_k2 = [ex_y; ex_x].
Proof. vm_compute. reflexivity. Qed.
Lemma ex_ok3 name : call_ok ex_s2 ex_k2 (ex_call3 name).
Proof. cbn [call_ok ex_call3]. rewrite ex_k2_y. left; reflexivity. Qed.
Lemma ex_session3 name : exists l, session (ex_s3 name) l.
Proof. eexists. apply (session_call ex_s2 ex_k2 (ex_call3 name)); [apply ex_session2|apply ex_ok3]. Qed.

Definition gone (w : @world PolyOps) (t : oid) : bool := match obj_of w t with None => true | Some _ => false end.
Definition result_is (r : res outcome) (t : oid) : bool := match r with Ok (Object i) => i =? t | _ => false end.
Lemma result_of (p : res outcome * @world PolyOps) t : result_is (fst p) t = true -> p = (Ok (Object t), snd p).
Proof. destruct p as [[[| |i]|e] w]; cbn; try discriminate. intros H. apply Nat.eqb_eq in H. subst. reflexivity. Qed.

Lemma ex_result : run_call (ex_call3 "W") ex_s2 = (Ok (Object 5), ex_s3 "W").
Proof. apply result_of. vmtrue. Qed.
Lemma ex_result_kept : c_tensor ex_y = Some 4 /\ obj_of (ex_s3 "W") 4 = None.
Proof. split; [vm_cast_no_check (eq_refl (Some 4))|vm_cast_no_check (eq_refl (@None (@obj PolyOps)))]. Qed.

(** Calc with the name of the temporary tensors deletes its result. *)
Theorem temp_named_witness : exists (w : @world PolyOps) (l : list calc) (x : calc) symbol ind t w',
  session w l /\ call_ok w l (CallCalc x "TEMP" symbol ind) /\
  run_call (CallCalc x "TEMP" symbol ind) w = (Ok (Object t), w') /\ ~ In t (insts w') /\ obj_of w' t = None.
Proof.
  exists ex_s2, ex_k2, ex_y, "W"%string, [], 5, (ex_s3 "TEMP"). split; [apply ex_session2|]. split; [apply (ex_ok3 "TEMP")|].
  split; [apply (result_of (run_call (ex_call3 "TEMP") ex_s2)); vmtrue|].
  assert (E : obj_of (ex_s3 "TEMP") 5 = None) by (vm_cast_no_check (eq_refl (@None (@obj PolyOps)))). split; [|exact E].
  intros H. destruct (ex_session3 "TEMP") as [l S]. destruct (session_sound _ _ S) as [[[_ Q] _] _]. apply (Q 5 H), E.
Qed.

(** Two coordinate systems with rules to each other outlive clear_instances. *)
Definition ex_cleared : @world PolyOps := snd (clear_instances ex_hist_w).
Definition ex_new : @op PolyOps := OpMetric (ex_str "h") (VArr ex_g) (VObj 0) (VTuple [-1; -1]%Z) (ex_str "h").
Definition ex_orphan : @world PolyOps := snd (run_op ex_new ex_cleared).
Definition coords_is (w : @world PolyOps) (t c : oid) : bool :=
  match obj_of w t with Some o => match o_coords o with Some j => j =? c | None => false end | None => false end.

Lemma ex_hist_session : session ex_hist_w [].
Proof. apply reachable_session, run_all_reachable; [apply ex_w_reachable|vmtrue]. Qed.
Theorem survivors_witness : exists (w : @world PolyOps) c name comps symbol t w',
  session w [] /\ obj_of (snd (clear_instances w)) c <> None /\ insts (snd (clear_instances w)) = [] /\
  new_metric name comps (VObj c) (VTuple [-1; -1]%Z) symbol (snd (clear_instances w)) = (Ok t, w') /\
  In t (insts w') /\ ~ In c (insts w') /\ ~ integrity w'.
Proof.
  exists ex_hist_w, 0, (ex_str "h"), (VArr ex_g), (ex_str "h"), 4, ex_orphan. split; [apply ex_hist_session|].
  split. { assert (E : gone ex_cleared 0 = false) by (vm_cast_no_check (eq_refl false)). unfold gone in E. fold ex_cleared. intros X. rewrite X in E. discriminate E. }
  split; [vm_cast_no_check (eq_refl (@nil oid))|].
  assert (E : new_metric (ex_str "h") (VArr ex_g) (VObj 0) (VTuple [-1; -1]%Z) (ex_str "h") ex_cleared = (Ok 4, ex_orphan)).
  { assert (E : match fst (new_metric (ex_str "h") (VArr ex_g) (VObj 0) (VTuple [-1; -1]%Z) (ex_str "h") ex_cleared) with Ok t => t =? 4 | Err _ => false end = true) by vmtrue.
    unfold ex_orphan. cbn [run_op ex_new]. unfold mbind at 1. destruct (new_metric _ _ _ _ _ ex_cleared) as [[t|e] w']; cbn in E; [|discriminate E]. apply Nat.eqb_eq in E. subst. reflexivity. }
  split; [exact E|]. assert (J : insts ex_orphan = [4]) by (vm_cast_no_check (eq_refl [4])).
  split; [rewrite J; left; reflexivity|]. assert (Nc : ~ In 0 (insts ex_orphan)) by (rewrite J; intros [X|[]]; discriminate X).
  split; [exact Nc|]. intros [R I]. assert (B : coords_is ex_orphan 4 0 = true) by vmtrue. unfold coords_is in B.
  destruct (obj_of ex_orphan 4) as [o|] eqn:Eo; [|discriminate B]. destruct (o_coords o) as [j|] eqn:Ec; [|discriminate B]. apply Nat.eqb_eq in B. subst j.
  apply Nc. apply (I 4 o 0); [rewrite J; left; reflexivity|exact Eo|]. unfold refers. auto.
Qed.

(** A longer session, also with calls that fail. *)
Definition ex_calls : list (@call PolyOps) :=
  [ex_call3 "W"; CallNeg ex_x; CallChristoffel 2; CallRicci 2; CallLine 2 (Some 1); CallOp (OpDelete 2 true); CallNorm 5;
   CallShow 3 (None, None, Some 1, Some [-1]%Z); CallExportAll; CallRiemann 3; CallInfo 2; CallDeleteResults true; CallOp (OpDelete 5 true); CallIndices 5 ["a"%string]].
Fixpoint play (l : list (@call PolyOps)) (w : @world PolyOps) (k : list calc) : @world PolyOps * list calc :=
  match l with [] => (w, k) | c :: l' => play l' (snd (run_call c w)) (after c (fst (run_call c w)) k) end.
Definition heldb (w : @world PolyOps) (t : oid) : bool := existsb (Nat.eqb t) (insts w) || ((t <? length (heap w)) && gone w t).
Lemma heldb_spec w t : heldb w t = true -> held w t.
Proof.
  unfold heldb. intros H. apply Bool.orb_prop in H as [H|H].
  - left. apply existsb_exists in H as (x & Hx & E). apply Nat.eqb_eq in E. subst. exact Hx.
  - right. apply andb_prop in H as [H1 H2]. apply Nat.ltb_lt in H1. split; [exact H1|]. unfold gone in H2. destruct (obj_of w t); [discriminate H2|reflexivity].
Qed.
Definition okb (w : @world PolyOps) (c : @call PolyOps) : bool :=
  match c with
  | CallOp (OpDelete _ _) | CallShow _ _ | CallExportAll | CallInfo _ | CallDeleteResults _ => true
  | CallChristoffel m | CallRiemann m | CallRicci m | CallNorm m | CallIndices m _ => heldb w m
  | CallLine m _ => match cls_of w m with Some CMetric => true | _ => false end
  | _ => false
  end.
Lemma okb_spec w l c : okb w c = true -> call_ok w l c.
Proof.
  destruct c as [[]|m|m|m|m|m|m|m|m c|m c|m c|m c|m c|m c|t a|t a|t a|b p t a|b p t a|b p t a|t|t| |n s|n s|b| |t sy|sy|sy|x y|x y|x y|x y|x|x y|x k|x y|x name symbol ind];
    cbn [okb call_ok]; try discriminate; try (intros _; exact I); try apply heldb_spec.
  destruct (cls_of w m) as [[]|]; try discriminate. reflexivity.
Qed.
Fixpoint all_okb (l : list (@call PolyOps)) (w : @world PolyOps) : bool :=
  match l with [] => true | c :: l' => okb w c && all_okb l' (snd (run_call c w)) end.
Lemma play_session l : forall w k, session w k -> all_okb l w = true -> session (fst (play l w k)) (snd (play l w k)).
Proof.
  induction l as [|c l IH]; intros w k S H; [exact S|]. cbn [play all_okb] in *. apply andb_prop in H as [H1 H2]. apply IH; [|exact H2].
  apply session_call; [exact S|]. apply okb_spec, H1.
Qed.
Definition ex_before : @world PolyOps * list calc := play (firstn 2 ex_calls) ex_s2 ex_k2.
Definition ex_after : @world PolyOps * list calc := play (skipn 2 ex_calls) (fst ex_before) (snd ex_before).
Lemma ex_before_session : session (fst ex_before) (snd ex_before).
Proof.
  unfold ex_before. cbn [ex_calls firstn play]. cbn [fst snd]. apply session_call.
  - apply session_call; [apply ex_session2|apply ex_ok3].
  - cbn [call_ok]. assert (E : after (ex_call3 "W") (fst (run_call (ex_call3 "W") ex_s2)) ex_k2 = ex_k2).
    { rewrite ex_result. reflexivity. }
    rewrite E, ex_k2_y. right. left. reflexivity.
Qed.
Lemma ex_after_session : session (fst ex_after) (snd ex_after).
Proof. apply play_session; [apply ex_before_session|vmtrue]. Qed.
Lemma ex_after_state : insts (fst ex_after) = [0; 1; 2; 3; 17; 28; 31; 34] /\ map c_tensor (snd ex_after) = [Some 6; Some 4; Some 3] /\
  obj_of (fst ex_after) 6 = None /\ obj_of (fst ex_after) 4 = None /\ obj_of (fst ex_after) 5 = None.
Proof.
  split; [vm_cast_no_check (eq_refl [0; 1; 2; 3; 17; 28; 31; 34])|]. split; [vm_cast_no_check (eq_refl [Some 6; Some 4; Some 3])|].
  split; [vm_cast_no_check (eq_refl (@None (@obj PolyOps)))|]. split; vm_cast_no_check (eq_refl (@None (@obj PolyOps))).
Qed.
