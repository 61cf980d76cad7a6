(** Concrete sessions with replaced components. *)
From Coq Require Import QArith Qcanon Permutation String.
From Verif Require Import Alg Alg_P Arr Arr_P Spec UtilsM Arr2_P Act_P TensorM Jacobian_P Inst Ex WorldM SpecWorld World_P Registry_P CalcM SpecCalc Calc_P CurvM SpecCurv GeodM SpecGeod Geod4_P ExWorld Witness_World_P Witness_History_P Witness_Calc_P Witness_Curv_P Witness_Tensor_P Witness_Geod_P CurveM SpecCurve Curve_P Witness_Info_P InstCurve.
Import List.
Local Open Scope nat_scope.

(** ** Symbols of an expression *)
Fixpoint occurs (s : string) (e : pexp) : bool :=
  match e with
  | PC _ => false
  | PV t => String.eqb s t
  | PAdd a b | PMul a b | PSub a b => occurs s a || occurs s b
  | POpp a => occurs s a
  end.
Lemma occurs_subs s q e : occurs s e = false -> psubs s q e = e.
Proof.
  induction e as [c|t|a IHa b IHb|a IHa b IHb|a IHa b IHb|a IHa]; cbn; intros H; try reflexivity.
  - rewrite H. reflexivity.
  - apply orb_false_elim in H as [H1 H2]. rewrite IHa, IHb by assumption. reflexivity.
  - apply orb_false_elim in H as [H1 H2]. rewrite IHa, IHb by assumption. reflexivity.
  - apply orb_false_elim in H as [H1 H2]. rewrite IHa, IHb by assumption. reflexivity.
  - rewrite IHa by assumption. reflexivity.
Qed.
Section OccursDiff.
Variable R : calg.
Variable v : string -> car R.
Add Ring Rring3 : (cring R).
Lemma occurs_diff_val s e : occurs s e = false -> peval R v (pdiff s e) = c0 R.
Proof.
  induction e as [c|t|a IHa b IHb|a IHa b IHb|a IHa b IHb|a IHa]; cbn; intros H; try apply cinj_0.
  - rewrite H. apply cinj_0.
  - apply orb_false_elim in H as [H1 H2]. rewrite (IHa H1), (IHb H2). ring.
  - apply orb_false_elim in H as [H1 H2]. rewrite (IHa H1), (IHb H2). ring.
  - apply orb_false_elim in H as [H1 H2]. rewrite (IHa H1), (IHb H2). ring.
  - rewrite (IHa H). ring.
Qed.
End OccursDiff.
Lemma occurs_diff s e : occurs s e = false -> @keq PolyOps (pdiff s e) (PC 0%Q).
Proof. intros H R v. rewrite (occurs_diff_val R v s e H). symmetry. apply cinj_0. Qed.
Lemma occurs_free s e : occurs s e = false -> @free_of PolyOps s e.
Proof. intros H. split; [apply occurs_diff, H|]. intros q. change (@ksub1 PolyOps) with psubs. rewrite (occurs_subs s q e H). reflexivity. Qed.

Definition freshb (r : list (string * pexp)) (fresh : list string) (e : pexp) : bool :=
  (length fresh =? length r) && Witness_Geod_P.nodupb fresh &&
  forallb (fun y => negb (existsb (String.eqb y) (map fst r)) && negb (occurs y e) && forallb (fun kv => negb (occurs y (snd kv))) r) fresh.
Lemma freshb_spec r fresh e : freshb r fresh e = true -> @fresh_for PolyOps r fresh e.
Proof.
  intros H. unfold freshb in H. do 2 cut2 H. split; [apply Nat.eqb_eq, H|]. split; [apply Witness_Geod_P.nodupb_spec, C0|].
  intros y Hy. rewrite forallb_forall in C. specialize (C y Hy). do 2 cut2 C. split; [|split].
  - intros Z. apply negb_true_iff in C. apply not_true_iff_false in C. apply C. apply existsb_exists. exists y. split; [exact Z|apply String.eqb_refl].
  - apply negb_true_iff in C2. exact (proj2 (occurs_free y e C2)).
  - apply Forall_forall. intros kv Hkv. rewrite forallb_forall in C1. specialize (C1 kv Hkv). apply negb_true_iff in C1. exact (proj2 (occurs_free y _ C1)).
Qed.

(** ** Runs whose results differ *)
Definition apart_run {X} (r : res (pexp * pexp * X)) (test : X -> bool) (v : string -> Qc) : bool :=
  match r with
  | Ok (a, b, x) => negb (Qeq_bool (this (peval Qc_alg v a)) (this (peval Qc_alg v b))) && test x
  | _ => false
  end.
Lemma apart_run_spec {X} (m : @M PolyOps (pexp * pexp * X)) test (w : @world PolyOps) v : apart_run (fst (m w)) test v = true ->
  exists a b x w', m w = (Ok (a, b, x), w') /\ ~ @keq PolyOps a b /\ test x = true.
Proof.
  destruct (m w) as [[[[a b] x]|] w']; cbn [fst apart_run]; try discriminate.
  intros H. cut2 H. exists a, b, x, w'. split; [reflexivity|]. split; [|exact C]. intros U.
  apply negb_true_iff in H. apply not_true_iff_false in H. apply H. apply Qeq_bool_iff. apply (peq_Qc _ _ v) in U. rewrite U. reflexivity.
Qed.
Definition at1 (s1 : string) (s : string) : Qc := if String.eqb s s1 then 1%Qc else 0%Qc.

Lemma ex_time_reachable : reachable ex_time_w.
Proof. apply start_reachable; vmtrue. Qed.

Ltac bind H x w E := apply bind_inv in H as (x & w & E & H).


Definition sized (n : nat) (a : @arr PolyOps) : bool := nat_listb (shape a) [n] && (length (data a) =? n).
Lemma sized_spec n a : sized n a = true -> awf a /\ shape a = [n].
Proof.
  intros H. apply andb_prop in H as [H1 H2]. apply nat_listb_spec in H1. apply Nat.eqb_eq in H2. split; [|exact H1]. unfold awf. rewrite H1, H2. cbn. lia.
Qed.

(** *** Exchanged symbols *)
Lemma swap_witness : exists (w : @world PolyOps) t a w1 b w2 r fresh, reachable w /\ cls_of w t = Some CTensor /\
  get_components t None None w = (Ok a, w1) /\ awf a /\ shape a = [2] /\
  NoDup (map fst r) /\ fresh_for r fresh (aget a [0]) /\
  get_components_replaced r t None None w1 = (Ok b, w2) /\ ~ keq (aget b [0]) (subs_sim r fresh (aget a [0])).
Proof.
  destruct (apart_run_spec
    (let! a := @get_components PolyOps 3 None None in
     let! b := @get_components_replaced PolyOps ex_swap 3 None None in
     mret (@aget PolyOps b [0], @subs_sim PolyOps ex_swap ["p"; "q"]%string (@aget PolyOps a [0]), a))
    (fun a => sized 2 a && freshb ex_swap ["p"; "q"]%string (@aget PolyOps a [0])) ex_w (at1 "x")) as (x & y & z & w' & H & NE & T); [vmtrue|].
  bind H a w1 E0. bind H b w2 E1. apply ret_inv in H as [H _]. injection H as -> -> ->.
  apply andb_prop in T as [T1 T2]. destruct (sized_spec _ _ T1) as [W Sh].
  exists ex_w, 3, a, w1, b, w2, ex_swap, ["p"; "q"]%string. split; [apply ex_w_reachable|]. split; [vm_compute; reflexivity|].
  split; [exact E0|]. split; [exact W|]. split; [exact Sh|]. split; [apply Witness_Geod_P.nodupb_spec; vmtrue|]. split; [apply freshb_spec, T2|].
  split; [exact E1|exact NE].
Qed.

(** *** Curves *)
Definition clearb (p : string) (xs : list string) : bool := Witness_Geod_P.nodupb (p :: curve_symbols p xs ++ function_names p xs).
Lemma clearb_spec p xs : clearb p xs = true -> clear_names p xs.
Proof. intros H. apply Witness_Geod_P.nodupb_spec, H. Qed.
Definition str_listb (l l' : list string) : bool := if list_eq_dec String.string_dec l l' then true else false.
Lemma str_listb_spec l l' : str_listb l l' = true -> l = l'.
Proof. unfold str_listb. destruct (list_eq_dec _ l l'); [auto|discriminate]. Qed.

(** A coordinate replaced by an expression in itself: r is {y: y**2}. *)
Definition ex_square : list (string * @K PolyOps) := [("y"%string, PMul (pv "y") (pv "y"))].
Lemma self_witness : exists (w : @world PolyOps) m t w0 c oc a w1 b w2 p r fresh,
  reachable w /\ calc_geodesic_time m None w = (Ok t, w0) /\ get_components t (Some c) None w0 = (Ok a, w1) /\ awf a /\ shape a = [2] /\
  obj_of w1 c = Some oc /\ hd_error (o_syms oc) = Some p /\ clear_names p (o_syms oc) /\
  (exists x e, r = [(x, e)] /\ In x (o_syms oc) /\ x <> p /\ static p (o_syms oc) e) /\
  fresh_for (curve_rules p (o_syms oc) r) fresh (aget a [1]) /\
  get_curve_components true "lambda" (Some r) t (Some c) None w1 = (Ok b, w2) /\
  ~ keq (aget b [1]) (as_functions p (o_syms oc) (at_parameter p (subs_sim (curve_rules p (o_syms oc) r) fresh (aget a [1])))).
Proof.
  set (F := ["f1"; "f2"; "f3"]%string).
  destruct (apart_run_spec
    (let! t := @calc_geodesic_time PolyOps 1 None in
     let! a := @get_components PolyOps t (Some 0) None in
     let! oc := getobj 0 in
     let! b := @get_curve_components PolyOps PolyNum true "lambda" (Some ex_square) t (Some 0) None in
     mret (@aget PolyOps b [1], @as_functions PolyOps "x" (o_syms oc) (@at_parameter PolyOps "x" (@subs_sim PolyOps (@curve_rules PolyOps "x" (o_syms oc) ex_square) F (@aget PolyOps a [1]))), (a, oc)))
    (fun q => let (a, oc) := q in sized 2 a && str_listb (o_syms oc) ex_xs && freshb (@curve_rules PolyOps "x" ex_xs ex_square) F (@aget PolyOps a [1])) ex_time_w
    (fun s => if String.eqb s "y(x)" then 1%Qc else if String.eqb s "ydot(x)" then 1%Qc else 0%Qc)) as (x & y & z & w' & H & NE & T); [vmtrue|].
  bind H t w0 E0. bind H a w1 E1. bind H oc w1' E2. apply getobj_inv in E2 as [E2 ->]. bind H b w2 E3. apply ret_inv in H as [H _]. injection H as -> -> ->.
  apply andb_prop in T as [T T2]. apply andb_prop in T as [T0 T1]. destruct (sized_spec _ _ T0) as [W Sh]. apply str_listb_spec in T1. rewrite T1 in NE.
  exists ex_time_w, 1, t, w0, 0, oc, a, w1, b, w2, "x"%string, ex_square, F. rewrite T1.
  split; [apply ex_time_reachable|]. split; [exact E0|]. split; [exact E1|]. split; [exact W|]. split; [exact Sh|]. split; [exact E2|].
  split; [reflexivity|]. split; [apply clearb_spec; vmtrue|]. split.
  { exists "y"%string, (PMul (pv "y") (pv "y")). split; [reflexivity|]. split; [right; left; reflexivity|]. split; [discriminate|]. split.
    - intros f Hf. apply occurs_free. assert (G : forallb (fun f => negb (occurs f (PMul (pv "y") (pv "y")))) (function_names "x" ex_xs) = true) by vmtrue.
      rewrite forallb_forall in G. apply negb_true_iff, (G f Hf).
    - intros z Hz. destruct Hz as [<-|[]]. split; apply occurs_free; reflexivity. }
  split; [apply freshb_spec, T2|]. split; [exact E3|exact NE].
Qed.

(** A velocity: r is {ydot: 3}. *)
Lemma velocity_witness : exists (w : @world PolyOps) m t w0 c oc a w1 b w2 p x q,
  reachable w /\ calc_lagrangian m None w = (Ok t, w0) /\ get_components t (Some c) None w0 = (Ok a, w1) /\ awf a /\ shape a = [] /\
  obj_of w1 c = Some oc /\ clear_names p (o_syms oc) /\ In x (o_syms oc) /\ x <> p /\
  (forall s, free_of s q) /\
  get_curve_components false p (Some [((x ++ "dot")%string, q)]) t (Some c) None w1 = (Ok b, w2) /\
  ~ keq (aget b []) (as_functions p (o_syms oc) (ksub1 (x ++ "dot")%string q (aget a []))).
Proof.
  destruct (apart_run_spec
    (let! t := @calc_lagrangian PolyOps 1 None in
     let! a := @get_components PolyOps t (Some 0) None in
     let! oc := getobj 0 in
     let! b := @get_curve_components PolyOps PolyNum false "lambda" (Some [("ydot"%string, pz 3)]) t (Some 0) None in
     mret (@aget PolyOps b [], @as_functions PolyOps "lambda" (o_syms oc) (@ksub1 PolyOps "ydot" (pz 3) (@aget PolyOps a [])), (a, oc)))
    (fun q => let (a, oc) := q in nat_listb (shape a) [] && (length (data a) =? 1) && str_listb (o_syms oc) ex_xs) ex_time_w
    (at1 "xdot(lambda)")) as (x & y & z & w' & H & NE & T); [vmtrue|].
  bind H t w0 E0. bind H a w1 E1. bind H oc w1' E2. apply getobj_inv in E2 as [E2 ->]. bind H b w2 E3. apply ret_inv in H as [H _]. injection H as -> -> ->.
  apply andb_prop in T as [T T1]. apply andb_prop in T as [T0 T2]. apply nat_listb_spec in T0. apply Nat.eqb_eq in T2. apply str_listb_spec in T1. rewrite T1 in NE.
  exists ex_time_w, 1, t, w0, 0, oc, a, w1, b, w2, "lambda"%string, "y"%string, (pz 3). rewrite T1.
  split; [apply ex_time_reachable|]. split; [exact E0|]. split; [exact E1|]. split; [unfold awf; rewrite T0, T2; reflexivity|]. split; [exact T0|]. split; [exact E2|].
  split; [apply clearb_spec; vmtrue|]. split; [right; left; reflexivity|]. split; [discriminate|]. split; [intros s; apply occurs_free; reflexivity|]. split; [exact E3|exact NE].
Qed.

(** A symbol that does not occur: r is {M: y}. *)
Lemma zero_witness : exists (w : @world PolyOps) m t w0 c oc a w1 b w2 p s q,
  reachable w /\ calc_geodesic_time m None w = (Ok t, w0) /\ get_components t (Some c) None w0 = (Ok a, w1) /\ awf a /\ shape a = [2] /\
  obj_of w1 c = Some oc /\ hd_error (o_syms oc) = Some p /\ clear_names p (o_syms oc) /\
  ~ In s (p :: curve_symbols p (o_syms oc) ++ function_names p (o_syms oc)) /\ static p (o_syms oc) q /\
  keq (aget a [0]) k0 /\
  get_curve_components true "lambda" (Some [(s, q)]) t (Some c) None w1 = (Ok b, w2) /\ ~ keq (aget b [0]) k0.
Proof.
  destruct (apart_run_spec
    (let! t := @calc_geodesic_time PolyOps 1 None in
     let! a := @get_components PolyOps t (Some 0) None in
     let! oc := getobj 0 in
     let! b := @get_curve_components PolyOps PolyNum true "lambda" (Some [("M"%string, pv "y")]) t (Some 0) None in
     mret (@aget PolyOps b [0], @k0 PolyOps, (a, oc)))
    (fun q => let (a, oc) := q in sized 2 a && str_listb (o_syms oc) ex_xs && pisz (@aget PolyOps a [0])) ex_time_w
    (at1 "yddot(x)")) as (x & y & z & w' & H & NE & T); [vmtrue|].
  bind H t w0 E0. bind H a w1 E1. bind H oc w1' E2. apply getobj_inv in E2 as [E2 ->]. bind H b w2 E3. apply ret_inv in H as [H _]. injection H as -> -> ->.
  apply andb_prop in T as [T T2]. apply andb_prop in T as [T0 T1]. destruct (sized_spec _ _ T0) as [W Sh]. apply str_listb_spec in T1.
  exists ex_time_w, 1, t, w0, 0, oc, a, w1, b, w2, "x"%string, "M"%string, (pv "y"). rewrite T1.
  split; [apply ex_time_reachable|]. split; [exact E0|]. split; [exact E1|]. split; [exact W|]. split; [exact Sh|]. split; [exact E2|].
  split; [reflexivity|]. split; [apply clearb_spec; vmtrue|]. split.
  { intros Z. assert (G : existsb (String.eqb "M") ("x"%string :: curve_symbols "x" ex_xs ++ function_names "x" ex_xs) = true) by (apply existsb_exists; exists "M"%string; split; [exact Z|reflexivity]).
    revert G. apply not_true_iff_false. vm_cast_no_check (eq_refl false). }
  split.
  { split.
    - intros f Hf. apply occurs_free. assert (G : forallb (fun f => negb (occurs f (pv "y"))) (function_names "x" ex_xs) = true) by vmtrue.
      rewrite forallb_forall in G. apply negb_true_iff, (G f Hf).
    - intros z Hz. destruct Hz as [<-|[]]. split; apply occurs_free; reflexivity. }
  split; [apply pisz_ok, T2|]. split; [exact E3|exact NE].
Qed.

(** The parameter: r is {x: 5}. *)
Lemma parameter_witness : exists (w : @world PolyOps) m t w0 c oc a w1 b w2 b' w3 p q,
  reachable w /\ calc_geodesic_time m None w = (Ok t, w0) /\ get_components t (Some c) None w0 = (Ok a, w1) /\ awf a /\ shape a = [2] /\
  obj_of w1 c = Some oc /\ hd_error (o_syms oc) = Some p /\ clear_names p (o_syms oc) /\
  (forall s, free_of s q) /\ free_of p (aget a [1]) /\
  get_curve_components true "lambda" (Some [(p, q)]) t (Some c) None w1 = (Ok b, w2) /\
  get_curve_components true "lambda" None t (Some c) None w2 = (Ok b', w3) /\ ~ keq (aget b [1]) (aget b' [1]).
Proof.
  destruct (apart_run_spec
    (let! t := @calc_geodesic_time PolyOps 1 None in
     let! a := @get_components PolyOps t (Some 0) None in
     let! oc := getobj 0 in
     let! b := @get_curve_components PolyOps PolyNum true "lambda" (Some [("x"%string, pz 5)]) t (Some 0) None in
     let! b' := @get_curve_components PolyOps PolyNum true "lambda" None t (Some 0) None in
     mret (@aget PolyOps b [1], @aget PolyOps b' [1], (a, oc)))
    (fun q => let (a, oc) := q in sized 2 a && str_listb (o_syms oc) ex_xs && negb (occurs "x" (psimp (@aget PolyOps a [1])))) ex_time_w
    (fun _ => 0%Qc)) as (x & y & z & w' & H & NE & T); [vmtrue|].
  bind H t w0 E0. bind H a w1 E1. bind H oc w1' E2. apply getobj_inv in E2 as [E2 ->]. bind H b w2 E3. bind H b' w3 E4. apply ret_inv in H as [H _]. injection H as -> -> ->.
  apply andb_prop in T as [T T2]. apply andb_prop in T as [T0 T1]. destruct (sized_spec _ _ T0) as [W Sh]. apply str_listb_spec in T1.
  exists ex_time_w, 1, t, w0, 0, oc, a, w1, b, w2, b', w3, "x"%string, (pz 5). rewrite T1.
  split; [apply ex_time_reachable|]. split; [exact E0|]. split; [exact E1|]. split; [exact W|]. split; [exact Sh|]. split; [exact E2|].
  split; [reflexivity|]. split; [apply clearb_spec; vmtrue|]. split; [intros s; apply occurs_free; reflexivity|].
  split. { apply (Curve_P.free_eq (A := PolyOps) "x" (psimp (@aget PolyOps a [1])) (@aget PolyOps a [1])); [apply psimp_ok|]. apply occurs_free, negb_true_iff, T2. }
  split; [exact E3|]. split; [exact E4|exact NE].
Qed.

(** *** Hypotheses *)
Definition mem (x : string) (l : list string) : bool := existsb (String.eqb x) l.
Lemma mem_spec x l : mem x l = true <-> In x l.
Proof.
  unfold mem. rewrite existsb_exists. split; [intros (y & H & E); apply String.eqb_eq in E; subst; exact H|intros H; exists x; split; [exact H|apply String.eqb_refl]].
Qed.
Lemma mem_not x l : mem x l = false -> ~ In x l.
Proof. intros H Z. apply mem_spec in Z. congruence. Qed.
Definition lacks (l : list string) (e : pexp) : bool := forallb (fun s => negb (occurs s e)) l.
Lemma lacks_spec l e s : lacks l e = true -> In s l -> @free_of PolyOps s e.
Proof. intros H Hs. unfold lacks in H. rewrite forallb_forall in H. apply occurs_free, negb_true_iff, H, Hs. Qed.
Definition plainb (r : list (string * pexp)) : bool := Witness_Geod_P.nodupb (map fst r) && forallb (fun kv => lacks (map fst r) (snd kv)) r.
Lemma plainb_spec r : plainb r = true -> @plain_replacement PolyOps r.
Proof.
  intros H. apply andb_prop in H as [H1 H2]. rewrite forallb_forall in H2. split; [apply Witness_Geod_P.nodupb_spec, H1|].
  intros k v k' Hk Hk'. exact (lacks_spec _ _ _ (H2 (k, v) Hk) Hk').
Qed.
Definition stat (p : string) (xs : list string) (e : pexp) : bool :=
  lacks (function_names p xs) e && forallb (fun x => lacks [x ++ "dot"; x ++ "ddot"]%string e) (along_curve p xs).
Lemma stat_spec p xs e : stat p xs e = true -> @static PolyOps p xs e.
Proof.
  intros H. apply andb_prop in H as [H1 H2]. rewrite forallb_forall in H2. split; [intros f Hf; exact (lacks_spec _ _ _ H1 Hf)|].
  intros x Hx. specialize (H2 x Hx). split; apply (lacks_spec _ _ _ H2); [left|right; left]; reflexivity.
Qed.
Definition goodb (p : string) (xs : list string) (r : list (string * pexp)) : bool :=
  plainb r && forallb (fun kv => stat p xs (snd kv) && (mem (fst kv) (along_curve p xs) ||
    negb (mem (fst kv) (p :: curve_symbols p xs ++ function_names p xs)) && negb (occurs p (snd kv)) && lacks (along_curve p xs) (snd kv))) r.
Lemma goodb_spec p xs r : goodb p xs r = true -> @good_replacement PolyOps p xs r.
Proof.
  intros H. apply andb_prop in H as [H1 H2]. apply plainb_spec in H1 as [N1 N2]. rewrite forallb_forall in H2. split; [exact N1|]. split; [|exact N2].
  intros k v Hk. specialize (H2 (k, v) Hk). cbn [fst snd] in H2. apply andb_prop in H2 as [H2 H3]. split; [apply stat_spec, H2|].
  apply orb_prop in H3 as [H3|H3]; [left; apply mem_spec, H3|right]. apply andb_prop in H3 as [H3 H5]. apply andb_prop in H3 as [H3 H4].
  split; [apply mem_not, negb_true_iff, H3|]. split; [apply occurs_free, negb_true_iff, H4|]. intros x Hx. exact (lacks_spec _ _ _ H5 Hx).
Qed.

Definition okrun {X} (r : res X) (test : X -> bool) : bool := match r with Ok x => test x | _ => false end.
Lemma okrun_spec {X} (m : @M PolyOps X) test w : okrun (fst (m w)) test = true -> exists x w', m w = (Ok x, w') /\ test x = true.
Proof. destruct (m w) as [[x|] w']; cbn; [|discriminate]. intros H. exists x, w'. auto. Qed.

(** Replacement in the vector (x, y). *)
Definition ex_plain : list (string * @K PolyOps) := [("x"%string, PMul (pv "a") (pv "a")); ("y"%string, pz 2)].
Lemma ex_plain_hyps : exists a w1, get_components 3 None None ex_w = (Ok a, w1) /\ awf a /\ shape a = [2] /\ plain_replacement ex_plain /\
  forall i, inb (shape a) i = true -> fresh_for ex_plain ["p"; "q"]%string (aget a i).
Proof.
  destruct (okrun_spec (@get_components PolyOps 3 None None) (fun a => sized 2 a && freshb ex_plain ["p"; "q"]%string (@aget PolyOps a [0]) && freshb ex_plain ["p"; "q"]%string (@aget PolyOps a [1])) ex_w) as (a & w1 & E & T); [vmtrue|].
  apply andb_prop in T as [T T2]. apply andb_prop in T as [T T1]. destruct (sized_spec _ _ T) as [W Sh].
  exists a, w1. split; [exact E|]. split; [exact W|]. split; [exact Sh|]. split; [apply plainb_spec; vmtrue|].
  intros i Hi. rewrite Sh in Hi. destruct i as [|[|[|i]] [|j i']]; try discriminate Hi; apply freshb_spec; assumption.
Qed.

(** The curve x = y^2 in the Lagrangian, with another symbol set to 2; and the curve y = x^2,
    with parameter x. *)
Definition ex_parabola : list (string * @K PolyOps) := [("x"%string, PMul (pv "y") (pv "y")); ("M"%string, pz 2)].
Definition ex_timed : list (string * @K PolyOps) := [("y"%string, PMul (pv "x") (pv "x"))].
Lemma ex_curve_hyps : exists t w0 o a w1 oc, calc_lagrangian 1 None ex_time_w = (Ok t, w0) /\ obj_of w0 t = Some o /\ asked_coords o (Some 0) 0 /\
  get_components t (Some 0) None w0 = (Ok a, w1) /\ obj_of w1 0 = Some oc /\ awf a /\ clear_names "lambda" (o_syms oc) /\
  good_replacement "lambda" (o_syms oc) ex_parabola /\ ~ In "lambda"%string (o_syms oc).
Proof.
  destruct (okrun_spec (let! t := @calc_lagrangian PolyOps 1 None in let! o := getobj t in let! a := @get_components PolyOps t (Some 0) None in let! oc := getobj 0 in mret (a, oc))
    (fun q => let (a, oc) := q in nat_listb (shape a) [] && (length (data a) =? 1) && str_listb (o_syms oc) ex_xs) ex_time_w) as (q & w' & H & T); [vmtrue|].
  bind H t w0 E0. bind H o w0' E1. apply getobj_inv in E1 as [E1 ->]. bind H a w1 E2. bind H oc w1' E3. apply getobj_inv in E3 as [E3 ->]. apply ret_inv in H as [H _]. subst q.
  apply andb_prop in T as [T T2]. apply andb_prop in T as [T T1]. apply nat_listb_spec in T. apply Nat.eqb_eq in T1. apply str_listb_spec in T2.
  exists t, w0, o, a, w1, oc. rewrite T2. split; [exact E0|]. split; [exact E1|]. split; [left; reflexivity|]. split; [exact E2|]. split; [exact E3|].
  split; [unfold awf; rewrite T, T1; reflexivity|]. split; [apply clearb_spec; vmtrue|]. split; [apply goodb_spec; vmtrue|].
  intros [Z|[Z|[]]]; discriminate Z.
Qed.
Lemma ex_timed_hyps : exists t w0 o a w1 oc, calc_geodesic_time 1 None ex_time_w = (Ok t, w0) /\ obj_of w0 t = Some o /\ asked_coords o (Some 0) 0 /\
  get_components t (Some 0) None w0 = (Ok a, w1) /\ obj_of w1 0 = Some oc /\ awf a /\ hd_error (o_syms oc) = Some "x"%string /\ clear_names "x" (o_syms oc) /\
  good_replacement "x" (o_syms oc) ex_timed.
Proof.
  destruct (okrun_spec (let! t := @calc_geodesic_time PolyOps 1 None in let! o := getobj t in let! a := @get_components PolyOps t (Some 0) None in let! oc := getobj 0 in mret (a, oc))
    (fun q => let (a, oc) := q in sized 2 a && str_listb (o_syms oc) ex_xs) ex_time_w) as (q & w' & H & T); [vmtrue|].
  bind H t w0 E0. bind H o w0' E1. apply getobj_inv in E1 as [E1 ->]. bind H a w1 E2. bind H oc w1' E3. apply getobj_inv in E3 as [E3 ->]. apply ret_inv in H as [H _]. subst q.
  apply andb_prop in T as [T T2]. destruct (sized_spec _ _ T) as [W Sh]. apply str_listb_spec in T2.
  exists t, w0, o, a, w1, oc. rewrite T2. split; [exact E0|]. split; [exact E1|]. split; [left; reflexivity|]. split; [exact E2|]. split; [exact E3|].
  split; [exact W|]. split; [reflexivity|]. split; [apply clearb_spec; vmtrue|apply goodb_spec; vmtrue].
Qed.
Lemma ex_ignored_hyps : exists t w0 o a w1 oc, calc_lagrangian 1 None ex_time_w = (Ok t, w0) /\ obj_of w0 t = Some o /\ asked_coords o (Some 0) 0 /\
  get_components t (Some 0) None w0 = (Ok a, w1) /\ obj_of w1 0 = Some oc /\ awf a /\ clear_names "lambda" (o_syms oc) /\
  (forall k, In k (map fst [("ydot"%string, pz 3)]) -> exists x, In x (along_curve "lambda" (o_syms oc)) /\ (k = (x ++ "dot")%string \/ k = (x ++ "ddot")%string)) /\
  forall i, inb (shape a) i = true -> no_functions "lambda" (o_syms oc) (aget a i).
Proof.
  destruct (okrun_spec (let! t := @calc_lagrangian PolyOps 1 None in let! o := getobj t in let! a := @get_components PolyOps t (Some 0) None in let! oc := getobj 0 in mret (a, oc))
    (fun q => let (a, oc) := q in nat_listb (shape a) [] && (length (data a) =? 1) && str_listb (o_syms oc) ex_xs && lacks (function_names "lambda" ex_xs) (@aget PolyOps a [])) ex_time_w) as (q & w' & H & T); [vmtrue|].
  bind H t w0 E0. bind H o w0' E1. apply getobj_inv in E1 as [E1 ->]. bind H a w1 E2. bind H oc w1' E3. apply getobj_inv in E3 as [E3 ->]. apply ret_inv in H as [H _]. subst q.
  apply andb_prop in T as [T T3]. apply andb_prop in T as [T T2]. apply andb_prop in T as [T T1]. apply nat_listb_spec in T. apply Nat.eqb_eq in T1. apply str_listb_spec in T2.
  exists t, w0, o, a, w1, oc. rewrite T2. split; [exact E0|]. split; [exact E1|]. split; [left; reflexivity|]. split; [exact E2|]. split; [exact E3|].
  split; [unfold awf; rewrite T, T1; reflexivity|]. split; [apply clearb_spec; vmtrue|]. split.
  - intros k [<-|[]]. exists "y"%string. split; [right; left; reflexivity|left; reflexivity].
  - intros i Hi. rewrite T in Hi. destruct i as [|j i]; [|discriminate Hi]. intros f Hf. exact (lacks_spec _ _ _ T3 Hf).
Qed.
