(** Concrete sessions for show, list and get_components. *)
From Coq Require Import QArith Qcanon String Ascii.
From Verif Require Import Alg Alg_P Arr Arr_P Spec UtilsM Arr2_P Act_P TensorM Jacobian_P Inst Ex WorldM SpecWorld World_P Registry_P CalcM SpecCalc Calc_P CurvM SpecCurv GeodM SpecGeod Geod4_P ExWorld Witness_World_P Witness_History_P Witness_Calc_P Witness_Curv_P Witness_Tensor_P Witness_Geod_P CurveM SpecCurve Curve_P Witness_Info_P InstCurve Witness_Curve_P SpecScalar Scalar_P Witness_Scalar_P ShowM SpecShow.
Import List.
Local Open Scope nat_scope.

Definition ex_shift : list (string * @K PolyOps) := [("y"%string, PAdd (pv "x") (pz 1))].

(** The test of a session: the components asked for, the object and the default coordinates. *)
Definition askb (t : oid) (coords : option oid) (c : oid) (r : nat) (e : bool) : @M PolyOps (@arr PolyOps * @obj PolyOps) :=
  let! o0 := getobj t in
  let! a := get_components t coords None in
  let! o := getobj t in
  let! c0 := mopt EAttributeError (o_coords o) in
  let! oc0 := getobj c0 in
  if (match coords with Some c' => c' =? c | None => opt_eqb (o_coords o0) c end)
     && cubicb 2 r a && (o_rank o =? r) && Bool.eqb (is_expr o c) e && (length (o_syms oc0) =? 2)
  then mret (a, o) else mraise EValueError.
Lemma askb_spec w t coords c r e q w' : askb t coords c r e w = (Ok q, w') ->
  obtained w t coords None c 2 (fst q) w' (snd q) /\ rank (fst q) = r /\
  (if e then made_elsewhere (snd q) c else ~ made_elsewhere (snd q) c) /\ n_coordinates w' (snd q) 2.
Proof.
  unfold askb. intros H. bind H o0 w0 E0. apply getobj_inv in E0 as [E0 ->]. bind H a w1 E1. bind H o w2 E2. apply getobj_inv in E2 as [E2 ->].
  bind H cc w2 E3. destruct (o_coords o) as [cc'|] eqn:Ec; [|discriminate E3]. injection E3 as -> <-. bind H oc0 w2 E4. apply getobj_inv in E4 as [E4 ->].
  destruct (_ && _) eqn:T in H; [|discriminate H]. apply ret_inv in H as [H ->]. subst q. cbn [fst snd].
  apply andb_prop in T as [T T5]. apply andb_prop in T as [T T4]. apply andb_prop in T as [T T3]. apply andb_prop in T as [T1 T2].
  apply cubicb_spec in T2 as [T2 R]. apply Nat.eqb_eq in T3, T5. apply Bool.eqb_prop in T4.
  split; [|split; [exact R|split]].
  - split; [exists o0; split; [exact E0|]|].
    + destruct coords as [c'|]; [left; apply Nat.eqb_eq in T1; congruence|right; split; [reflexivity|apply opt_eqb_spec, T1]].
    + split; [exact E1|]. split; [exact E2|]. split; [lia|]. split; [exact T2|congruence].
  - destruct e; [apply elsewhere_expr, T4|]. intros X. apply elsewhere_expr in X. congruence.
  - exists cc, oc0. auto.
Qed.
Lemma ask_run w t coords c r e : okrun (fst (askb t coords c r e w)) (fun _ => true) = true -> exists a w' o,
  obtained w t coords None c 2 a w' o /\ rank a = r /\ (if e then made_elsewhere o c else ~ made_elsewhere o c) /\ n_coordinates w' o 2.
Proof.
  intros H. destruct (okrun_spec (askb t coords c r e) (fun _ => true) w H) as (q & w' & E & _).
  apply askb_spec in E. exists (fst q), w', (snd q). exact E.
Qed.

Lemma ex_metric_case : (exists a w1 o, obtained ex_w 2 None None 0 2 a w1 o /\ rank a = 2 /\ ~ made_elsewhere o 0 /\ n_coordinates w1 o 2) /\
  plain_argument (Some ex_shift).
Proof. split; [apply (ask_run ex_w 2 None 0 2 false); vmtrue|]. apply plainb_spec. vmtrue. Qed.
Lemma ex_vector_case : exists a w1 o, obtained ex_w 3 (Some 1) None 1 2 a w1 o /\ rank a = 1.
Proof. destruct (ask_run ex_w 3 (Some 1) 1 1 false) as (a & w1 & o & H & R & _); [vmtrue|]. exists a, w1, o. auto. Qed.
Lemma ex_expression_case : exists (w : @world PolyOps) a w1 o, reachable w /\ obtained w 5 (Some 1) None 1 2 a w1 o /\ made_elsewhere o 1.
Proof. destruct (ask_run ex_scalar_w 5 (Some 1) 1 0 true) as (a & w1 & o & H & R & X & _); [vmtrue|]. exists ex_scalar_w, a, w1, o. split; [exact ex_scalar_reachable|]. auto. Qed.

Lemma square_witness : exists (w : @world PolyOps) t f b w1 b' w2,
  reachable w /\ cls_of w t = Some CTensor /\
  get_components_all (Some f) None t None None w = (Ok b, w1) /\ shape b = [2] /\
  show_components (Some f) None t None None w = (Ok b', w2) /\ shape b' = [2; 2].
Proof.
  set (f := fun e : @K PolyOps => @kmul PolyOps e e).
  destruct (okrun_spec (@get_components_all PolyOps (Some f) None 3 None None) (fun a => nat_listb (shape a) [2]) ex_w) as (b & w1 & E1 & T1); [vmtrue|].
  destruct (okrun_spec (@show_components PolyOps (Some f) None 3 None None) (fun a => nat_listb (shape a) [2; 2]) ex_w) as (b' & w2 & E2 & T2); [vmtrue|].
  exists ex_w, 3, f, b, w1, b', w2. split; [apply ex_w_reachable|]. split; [apply clsb_spec; vmtrue|]. split; [exact E1|].
  split; [apply nat_listb_spec, T1|]. split; [exact E2|apply nat_listb_spec, T2].
Qed.

Lemma curve_ask (make : @M PolyOps oid) r : okrun (fst ((let! t := make in let! q := askb t (Some 0) 0 r false in let! oc := getobj 0 in mret oc) ex_time_w))
    (fun oc => str_listb (o_syms oc) ex_xs) = true ->
  exists t w0 a w1 o oc, make ex_time_w = (Ok t, w0) /\ obtained w0 t (Some 0) None 0 2 a w1 o /\ obj_of w1 0 = Some oc /\ o_syms oc = ex_xs /\
    ~ made_elsewhere o 0 /\ rank a = r /\ n_coordinates w1 o 2.
Proof.
  intros H. destruct (okrun_spec _ _ _ H) as (oc & w' & E & T). clear H. rename E into H. bind H t w0 E0. bind H q w1 E1. bind H oc' w2 E2. apply getobj_inv in E2 as [E2 ->].
  apply ret_inv in H as [H _]. subst oc'. apply askb_spec in E1 as (E1 & R & M & C). apply str_listb_spec in T.
  exists t, w0, (fst q), w1, (snd q), oc. auto 10.
Qed.
Lemma ex_show_lagrangian : exists t w0 a w1 o oc, calc_lagrangian 1 None ex_time_w = (Ok t, w0) /\
  obtained w0 t (Some 0) None 0 2 a w1 o /\ obj_of w1 0 = Some oc /\ clear_names "lambda" (o_syms oc) /\
  curve_argument "lambda" (o_syms oc) (Some ex_parabola) /\ ~ made_elsewhere o 0 /\ rank a = 0 /\ n_coordinates w1 o 2.
Proof.
  destruct (curve_ask (@calc_lagrangian PolyOps 1 None) 0) as (t & w0 & a & w1 & o & oc & E & H & Ho & X & M & R & C); [vmtrue|].
  exists t, w0, a, w1, o, oc. rewrite X. split; [exact E|]. split; [exact H|]. split; [exact Ho|]. split; [apply clearb_spec; vmtrue|]. split; [apply goodb_spec; vmtrue|]. auto.
Qed.
Lemma ex_show_time : exists t w0 a w1 o oc, calc_geodesic_time 1 None ex_time_w = (Ok t, w0) /\
  obtained w0 t (Some 0) None 0 2 a w1 o /\ obj_of w1 0 = Some oc /\ hd_error (o_syms oc) = Some "x"%string /\ clear_names "x" (o_syms oc) /\
  curve_argument "x" (o_syms oc) (Some ex_timed) /\ ~ made_elsewhere o 0 /\ rank a = 1 /\ n_coordinates w1 o 2.
Proof.
  destruct (curve_ask (@calc_geodesic_time PolyOps 1 None) 1) as (t & w0 & a & w1 & o & oc & E & H & Ho & X & M & R & C); [vmtrue|].
  exists t, w0, a, w1, o, oc. rewrite X. split; [exact E|]. split; [exact H|]. split; [exact Ho|]. split; [reflexivity|]. split; [apply clearb_spec; vmtrue|]. split; [apply goodb_spec; vmtrue|]. auto.
Qed.

Lemma ex_mode_case : spelled "LaTeX" "latex" /\
  (forall word, In word ["sympy"; "mathematica"; "latex"]%string -> ~ spelled "tex" word) /\ exists o, obj_of ex_w 0 = Some o.
Proof.
  split; [|split].
  - cbn -[nat_of_ascii]. unfold capital. split; [right; exists 11; split; [lia|split; reflexivity]|]. split; [left; reflexivity|]. split; [right; exists 19; split; [lia|split; reflexivity]|].
    split; [left; reflexivity|]. split; [right; exists 23; split; [lia|split; reflexivity]|exact I].
  - intros word [<-|[<-|[<-|[]]]]; cbn -[nat_of_ascii]; intros H; repeat (destruct H as [_ H]); exact H.
  -
    assert (T : obj_view ex_w 0 (fun _ => true) false = true) by vmtrue. unfold obj_view in T. destruct (obj_of ex_w 0) as [o|]; [exists o; reflexivity|discriminate T].
Qed.
