(** Concrete formulas. *)
From Coq Require Import QArith Qcanon.
From Verif Require Import Alg Alg_P Arr Arr_P Spec UtilsM Arr2_P Act_P TensorM Inst Ex WorldM SpecWorld World_P Registry_P CalcM SpecCalc Calc_P Calc2_P Calc3_P Trace_P Run_P ExWorld Witness_World_P Witness_History_P.
Local Open Scope nat_scope.

(** Two numbers that a computation yields, with different values. *)
Definition differ2 (r : res (pexp * pexp)) (v : string -> Qc) : bool :=
  match r with
  | Ok (a, b) => negb (Qeq_bool (this (peval Qc_alg v a)) (this (peval Qc_alg v b)))
  | _ => false
  end.
Lemma differ2_spec (m : @M PolyOps (pexp * pexp)) (w : @world PolyOps) v : differ2 (fst (m w)) v = true ->
  exists a b w', m w = (Ok (a, b), w') /\ ~ @keq PolyOps a b.
Proof.
  destruct (m w) as [[[a b]|] w']; cbn [fst differ2]; try discriminate.
  intros H. exists a, b, w'. split; [reflexivity|].
  intros E. apply (peq_Qc _ _ v) in E. rewrite E in H.
  rewrite (proj2 (Qeq_bool_iff _ _)) in H by reflexivity. discriminate.
Qed.

Lemma mopt_inv {A : AlgOps} {X} e (x : option X) y w w' : mopt e x w = (Ok y, w') -> x = Some y /\ w' = w.
Proof. unfold mopt. destruct x; intros H; inversion H; auto. Qed.
Lemma getobj_inv {A : AlgOps} i o w w' : getobj i w = (Ok o, w') -> obj_of w i = Some o /\ w' = w.
Proof. unfold getobj. destruct (obj_of w i); intros H; inversion H; auto. Qed.
Lemma ret_inv {A : AlgOps} {X} (x y : X) w w' : mret x w = (Ok y, w') -> y = x /\ w' = w.
Proof. intros H. injection H as <- <-. auto. Qed.

Ltac unbind H :=
  let x := fresh "x" in let w' := fresh "w" in let E := fresh "E" in
  apply bind_inv in H as (x & w' & E & H).

Lemma ex_calc_reachable : reachable ex_calc_w.
Proof. apply run_all_reachable; [apply ex_w_reachable|vmtrue]. Qed.
Lemma ex_user_reachable : reachable ex_user_temp_w.
Proof. apply run_all_reachable; [apply ex_w_reachable|vmtrue]. Qed.

Definition v12 (s : string) : Qc := if String.eqb s "x" then (1 + 1)%Qc else if String.eqb s "u" then (1 + 1 + 1)%Qc else 1%Qc.

(** C41 *)
Lemma mixed_coordinates_witness :
  exists (w : @world PolyOps) t1 t2 x w1 y w2 z w3 tz r w4 o c a1 w5 a2 w6,
  reachable w /\ calc_call t1 ["a"]%string w = (Ok x, w1) /\ calc_call t2 ["a"]%string w1 = (Ok y, w2) /\
  matmul x y w2 = (Ok z, w3) /\ c_tensor z = Some tz /\ get_components tz None None w3 = (Ok r, w4) /\
  obj_of w4 tz = Some o /\ o_coords o = Some c /\
  get_components t1 (Some c) (Some [1]%Z) w4 = (Ok a1, w5) /\
  get_components t2 (Some c) (Some [-1]%Z) w5 = (Ok a2, w6) /\
  ~ keq (aget r []) (nsum 2 (fun k => kmul (aget a1 [k]) (aget a2 [k]))).
Proof.
  destruct (differ2_spec
    (let! x := calc_call 3 ["a"]%string in let! y := calc_call 6 ["a"]%string in
     let! z := matmul x y in let! tz := mopt EAttributeError (c_tensor z) in
     let! r := get_components tz None None in let! o := getobj tz in let! c := mopt EAttributeError (o_coords o) in
     let! a1 := get_components 3 (Some c) (Some [1]%Z) in let! a2 := get_components 6 (Some c) (Some [-1]%Z) in
     mret (aget r [], nsum 2 (fun k => kmul (aget a1 [k]) (aget a2 [k])))) ex_calc_w v12) as (a & b & w' & H & N); [vmtrue|].
  apply bind_inv in H as (x & w1 & E1 & H). apply bind_inv in H as (y & w2 & E2 & H). apply bind_inv in H as (z & w3 & E3 & H).
  apply bind_inv in H as (tz & w3' & E4 & H). apply mopt_inv in E4 as [E4 ->].
  apply bind_inv in H as (r & w4 & E5 & H). apply bind_inv in H as (o & w4' & E6 & H). apply getobj_inv in E6 as [E6 ->].
  apply bind_inv in H as (c & w4' & E7 & H). apply mopt_inv in E7 as [E7 ->].
  apply bind_inv in H as (a1 & w5 & E8 & H). apply bind_inv in H as (a2 & w6 & E9 & H). apply ret_inv in H as [H _]. injection H as -> ->.
  exists ex_calc_w, 3, 6, x, w1, y, w2, z, w3, tz, r, w4, o, c, a1, w5, a2, w6.
  split; [apply ex_calc_reachable|]. auto 12.
Qed.

(** C43 *)
Lemma trace_coordinates_witness :
  exists (w : @world PolyOps) t m o c x w1 tx r w2 g w3 a w4,
  reachable w /\ obj_of w t = Some o /\ o_coords o = Some c /\ o_metric o = Some m /\
  calc_call t ["a"; "a"]%string w = (Ok x, w1) /\ c_tensor x = Some tx /\ get_components tx None None w1 = (Ok r, w2) /\
  get_components m (Some c) (Some [-1; -1]%Z) w2 = (Ok g, w3) /\ get_components t (Some c) (Some [1; 1]%Z) w3 = (Ok a, w4) /\
  ~ keq (aget r []) (nsum 2 (fun k => nsum 2 (fun l => kmul (aget g [k; l]) (aget a [k; l])))).
Proof.
  destruct (differ2_spec
    (let! o := getobj 7 in let! c := mopt EAttributeError (o_coords o) in let! m := mopt EAttributeError (o_metric o) in
     let! x := calc_call 7 ["a"; "a"]%string in let! tx := mopt EAttributeError (c_tensor x) in
     let! r := get_components tx None None in
     let! g := get_components m (Some c) (Some [-1; -1]%Z) in let! a := get_components 7 (Some c) (Some [1; 1]%Z) in
     mret (aget r [], nsum 2 (fun k => nsum 2 (fun l => kmul (aget g [k; l]) (aget a [k; l]))))) ex_calc_w v12) as (a & b & w' & H & N); [vmtrue|].
  apply bind_inv in H as (o & w0 & E1 & H). apply getobj_inv in E1 as [E1 ->].
  apply bind_inv in H as (c & w0 & E2 & H). apply mopt_inv in E2 as [E2 ->].
  apply bind_inv in H as (m & w0 & E3 & H). apply mopt_inv in E3 as [E3 ->].
  apply bind_inv in H as (x & w1 & E4 & H). apply bind_inv in H as (tx & w1' & E5 & H). apply mopt_inv in E5 as [E5 ->].
  apply bind_inv in H as (r & w2 & E6 & H). apply bind_inv in H as (g & w3 & E7 & H). apply bind_inv in H as (a' & w4 & E8 & H).
  apply ret_inv in H as [H _]. injection H as -> ->.
  exists ex_calc_w, 7, m, o, c, x, w1, tx, r, w2, g, w3, a', w4. split; [apply ex_calc_reachable|]. auto 12.
Qed.

(** C45 *)
Lemma right_derivative_witness :
  exists (w : @world PolyOps) t x w0 d z1 w1 z2 w2 t1 r1 w3 t2 r2 w4 f,
  reachable w /\ calc_call t ["b"]%string w = (Ok x, w0) /\ PartialD ["a"]%string w0 = (Ok d, w0) /\
  matmul d x w0 = (Ok z1, w1) /\ matmul x d w1 = (Ok z2, w2) /\
  c_tensor z1 = Some t1 /\ get_components t1 None None w2 = (Ok r1, w3) /\
  c_tensor z2 = Some t2 /\ get_components t2 None None w3 = (Ok r2, w4) /\
  Permutation (c_syms z1) (c_syms z2) /\
  ~ keq (aget r1 (map f (c_syms z1))) (aget r2 (map f (c_syms z2))).
Proof.
  pose (f := fun s : string => if String.eqb s "a" then 1 else 0).
  destruct (differ2_spec
    (let! x := calc_call 4 ["b"]%string in
     let! z1 := matmul (mkCalc None ["a"]%string RPartial) x in let! z2 := matmul x (mkCalc None ["a"]%string RPartial) in
     let! t1 := mopt EAttributeError (c_tensor z1) in let! r1 := get_components t1 None None in
     let! t2 := mopt EAttributeError (c_tensor z2) in let! r2 := get_components t2 None None in
     let! u := mlift (if is_permutation (c_syms z1) (c_syms z2) then Ok tt else Err EValueError) in
     mret (aget r1 (map f (c_syms z1)), aget r2 (map f (c_syms z2)))) ex_calc_w v12) as (a & b & w' & H & N); [vmtrue|].
  apply bind_inv in H as (x & w0 & E1 & H). apply bind_inv in H as (z1 & w1 & E2 & H). apply bind_inv in H as (z2 & w2 & E3 & H).
  apply bind_inv in H as (t1 & w2' & E4 & H). apply mopt_inv in E4 as [E4 ->]. apply bind_inv in H as (r1 & w3 & E5 & H).
  apply bind_inv in H as (t2 & w3' & E6 & H). apply mopt_inv in E6 as [E6 ->]. apply bind_inv in H as (r2 & w4 & E7 & H).
  apply bind_inv in H as (u & w5 & E8 & H). apply ret_inv in H as [H _]. injection H as -> ->.
  exists ex_calc_w, 4, x, w0, (mkCalc None ["a"]%string RPartial), z1, w1, z2, w2, t1, r1, w3, t2, r2, w4, f.
  split; [apply ex_calc_reachable|]. split; [exact E1|]. split; [reflexivity|]. split; [exact E2|]. split; [exact E3|].
  split; [exact E4|]. split; [exact E5|]. split; [exact E6|]. split; [exact E7|]. split; [|exact N].
  apply is_permutation_spec. destruct (is_permutation (c_syms z1) (c_syms z2)); [reflexivity|discriminate E8].
Qed.

(** C39 *)
Lemma number_minus_witness :
  exists (w : @world PolyOps) t x w1 k z w2,
  reachable w /\ calc_call t ["a"]%string w = (Ok x, w1) /\ ~ keq k k0 /\ calc_rsub x (OScalar k) w1 = (Ok z, w2).
Proof.
  destruct (out_ok (calc_call 3 ["a"]%string) ex_w) as (x & w1 & E1 & E1'); [vmtrue|].
  destruct (out_ok (let! x := calc_call 3 ["a"]%string in calc_rsub x (OScalar k1)) ex_w) as (z & w2 & E2 & _); [vmtrue|].
  apply bind_inv in E2 as (x' & w1' & E3 & E2). rewrite E1 in E3. injection E3 as <- <-.
  exists ex_w, 3, x, w1, k1, z, w2. split; [apply ex_w_reachable|]. split; [exact E1|]. split; [|exact E2].
  intros E. apply (peq_Qc _ _ (fun _ => 0%Qc)) in E. apply (f_equal this) in E. vm_compute in E. discriminate.
Qed.

(** C32 *)
Lemma leftover_witness :
  exists (w : @world PolyOps) t x w0 y1 w1 y2 w2 y3 w3 y4 w4 r w5 i,
  reachable w /\ calc_call t ["a"]%string w = (Ok x, w0) /\
  calc_add x (OCalc x) w0 = (Ok y1, w1) /\ calc_add y1 (OCalc x) w1 = (Ok y2, w2) /\
  calc_add y2 (OCalc x) w2 = (Ok y3, w3) /\ calc_add y3 (OCalc x) w3 = (Ok y4, w4) /\
  run_calc y4 "R" "R" [] w4 = (Ok r, w5) /\
  In i (insts w5) /\ ~ In i (insts w) /\ named w5 "TEMP" i.
Proof.
  pose (prog := let! x := calc_call 3 ["a"]%string in let! y1 := calc_add x (OCalc x) in let! y2 := calc_add y1 (OCalc x) in
     let! y3 := calc_add y2 (OCalc x) in let! y4 := calc_add y3 (OCalc x) in run_calc y4 "R" "R" [] : @M PolyOps oid).
  destruct (out_ok prog ex_w) as (r & w' & H & Ew); [vmtrue|].
  assert (C : (inb_list 7 (insts (snd (prog ex_w))) && negb (inb_list 7 (insts ex_w)) && is_named (snd (prog ex_w)) "TEMP" 7) = true) by vmtrue.
  rewrite <- Ew in C. clear Ew. apply andb_prop in C as [C C3]. apply andb_prop in C as [C1 C2].
  unfold prog in H.
  apply bind_inv in H as (x & w0 & E0 & H). apply bind_inv in H as (y1 & w1 & E1 & H). apply bind_inv in H as (y2 & w2 & E2 & H).
  apply bind_inv in H as (y3 & w3 & E3 & H). apply bind_inv in H as (y4 & w4 & E4 & H).
  exists ex_w, 3, x, w0, y1, w1, y2, w2, y3, w3, y4, w4, r, w', 7.
  split; [apply ex_w_reachable|]. do 6 (split; [assumption|]). split; [apply inb_list_spec, C1|]. split; [|apply is_named_spec, C3].
  intros I. unfold inb_list in C2. rewrite (proj2 (existsb_exists _ _)) in C2; [discriminate C2|]. exists 7. split; [exact I|apply Nat.eqb_refl].
Qed.

(** C36 *)
Lemma user_temp_witness :
  exists (w : @world PolyOps) t i x w0 r w1,
  reachable w /\ cls_of w i = Some CTensor /\ In i (insts w) /\ calc_call t ["a"]%string w = (Ok x, w0) /\ In i (insts w0) /\
  run_calc x "R" "R" [] w0 = (Ok r, w1) /\ ~ In i (insts w1).
Proof.
  pose (prog := let! x := calc_call 3 ["a"]%string in run_calc x "R" "R" [] : @M PolyOps oid).
  destruct (out_ok prog ex_user_temp_w) as (r & w' & H & Ew); [vmtrue|].
  assert (C : (inb_list 4 (insts ex_user_temp_w) && inb_list 4 (insts (snd (calc_call 3 ["a"]%string ex_user_temp_w))) && negb (inb_list 4 (insts (snd (prog ex_user_temp_w))))) = true) by vmtrue.
  rewrite <- Ew in C. clear Ew. apply andb_prop in C as [C C3]. apply andb_prop in C as [C1 C2].
  unfold prog in H. apply bind_inv in H as (x & w0 & E0 & H).
  rewrite E0 in C2. exists ex_user_temp_w, 3, 4, x, w0, r, w'.
  split; [apply ex_user_reachable|]. split; [apply clsb_spec; vmtrue|]. split; [apply inb_list_spec, C1|]. split; [exact E0|].
  split; [apply inb_list_spec, C2|]. split; [exact H|].
  intros I. unfold inb_list in C3. rewrite (proj2 (existsb_exists _ _)) in C3; [discriminate C3|]. exists 4. split; [exact I|apply Nat.eqb_refl].
Qed.

(** C44 *)
Lemma divergence_witness :
  exists (w : @world PolyOps) t y w1 d w2,
  reachable w /\ calc_call t ["a"; "b"; "c"]%string w = (Ok y, w1) /\ PartialD ["c"]%string w1 = (Ok d, w1) /\
  matmul d y w1 = (Err EValueError, w2).
Proof.
  destruct (out_ok (calc_call 5 ["a"; "b"; "c"]%string) ex_calc_w) as (y & w1 & E1 & _); [vmtrue|].
  assert (C : is_err EValueError (fst ((let! y := calc_call 5 ["a"; "b"; "c"]%string in matmul (mkCalc None ["c"]%string RPartial) y) ex_calc_w)) = true) by vmtrue.
  rewrite (bind_ok _ _ _ _ _ E1) in C.
  destruct (out_err _ _ _ C) as (w2 & E2 & _).
  exists ex_calc_w, 5, y, w1, (mkCalc None ["c"]%string RPartial), w2. split; [apply ex_calc_reachable|]. split; [exact E1|]. split; [reflexivity|exact E2].
Qed.

(** C65 *)
Lemma symbol_count_witness :
  exists (w : @world PolyOps) t o x w1,
  reachable w /\ obj_of w t = Some o /\ o_rank o = 1 /\ calc_call t ["a"; "b"]%string w = (Ok x, w1).
Proof.
  destruct (out_ok (let! o := getobj 3 in let! u := mlift (if o_rank o =? 1 then Ok tt else Err EValueError) in calc_call 3 ["a"; "b"]%string) ex_w) as (x & w1 & H & _); [vmtrue|].
  apply bind_inv in H as (o & w0 & E0 & H). apply getobj_inv in E0 as [E0 ->]. apply bind_inv in H as (u & w0 & E1 & H).
  apply (f_equal fst) in E1 as E1'. apply (f_equal snd) in E1. cbn [fst snd mlift] in E1, E1'. subst w0. exists ex_w, 3, o, x, w1. split; [apply ex_w_reachable|]. split; [exact E0|].
  split; [|exact H]. destruct (Nat.eqb_spec (o_rank o) 1); [assumption|discriminate E1'].
Qed.

(** C66 *)
Lemma covariant_sum_witness :
  exists (w : @world PolyOps) t x w0 y w1 d w2,
  reachable w /\ calc_call t ["a"]%string w = (Ok x, w0) /\ calc_add x (OCalc x) w0 = (Ok y, w1) /\
  CovariantD ["b"]%string w1 = (Ok d, w1) /\ matmul d y w1 = (Err EAttributeError, w2) /\
  exists z w3, matmul d x w1 = (Ok z, w3).
Proof.
  pose (p1 := let! x := calc_call 3 ["a"]%string in let! y := calc_add x (OCalc x) in mret (x, y) : @M PolyOps (calc * calc)).
  assert (C : is_err EAttributeError (fst ((let! (x, y) := p1 in matmul (mkCalc None ["b"]%string RCovariant) y) ex_w)) = true) by vmtrue.
  assert (C' : is_ok (fst ((let! (x, y) := p1 in matmul (mkCalc None ["b"]%string RCovariant) x) ex_w)) = true) by vmtrue.
  destruct (out_ok p1 ex_w) as ([x y] & w1 & H & _); [vmtrue|].
  rewrite (bind_ok _ _ _ _ _ H) in C. rewrite (bind_ok _ _ _ _ _ H) in C'.
  unfold p1 in H. apply bind_inv in H as (x' & w0 & E0 & H). apply bind_inv in H as (y' & w1' & E1 & H). apply ret_inv in H as [H ->]. injection H as -> ->.
  destruct (out_err _ _ _ C) as (w2 & E2 & _). destruct (out_ok _ _ C') as (z & w3 & E3 & _).
  exists ex_w, 3, x', w0, y', w1', (mkCalc None ["b"]%string RCovariant), w2.
  split; [apply ex_w_reachable|]. split; [exact E0|]. split; [exact E1|]. split; [reflexivity|]. split; [exact E2|]. exists z, w3. exact E3.
Qed.

(** *** Operands in ex_calc_w that meet the hypotheses of the theorems *)
Lemma view_spec (w : @world PolyOps) t i c m :
  obj_view w t (fun o => cfg_eqb (o_indices o) i && (o_rank o =? length i) && opt_eqb (o_coords o) c && opt_eqb (o_metric o) m) false = true ->
  exists o, obj_of w t = Some o /\ o_indices o = i /\ o_rank o = length i /\ o_coords o = Some c /\ o_metric o = Some m.
Proof.
  unfold obj_view. destruct (obj_of w t) as [o|]; [|discriminate]. intros H. exists o. split; [reflexivity|].
  apply andb_prop in H as [H H4]. apply andb_prop in H as [H H3]. apply andb_prop in H as [H1 H2].
  apply cfg_eqb_spec in H1. apply Nat.eqb_eq in H2. apply opt_eqb_spec in H3, H4. auto.
Qed.

Definition cubicb (n r : nat) (a : @arr PolyOps) : bool := list_eqb (shape a) (repeat n r) && (length (data a) =? prodn (repeat n r)).
Lemma cubicb_spec n r a : cubicb n r a = true -> cubic n a /\ rank a = r.
Proof.
  intros H. apply andb_prop in H as [H1 H2]. apply list_eqb_spec in H1. apply Nat.eqb_eq in H2.
  assert (R : rank a = r) by (unfold rank; rewrite H1; apply repeat_length).
  split; [|exact R]. split; [unfold awf; rewrite H1; exact H2|rewrite R; exact H1].
Qed.

Definition got (n r : nat) (x : res (@arr PolyOps)) : bool := match x with Ok a => cubicb n r a | Err _ => false end.
Lemma got_spec n r (m : @M PolyOps (@arr PolyOps)) (w : @world PolyOps) : got n r (fst (m w)) = true ->
  exists a w', m w = (Ok a, w') /\ w' = snd (m w) /\ cubic n a /\ rank a = r.
Proof.
  destruct (m w) as [[a|] w']; cbn [fst snd got]; [|discriminate]. intros H. apply cubicb_spec in H as [H1 H2]. exists a, w'. auto.
Qed.

Definition systemb (w : @world PolyOps) (c : oid) (n : nat) : bool :=
  clsb w c CCoordinates && obj_view w c (fun o =>
    match dget Nat.eqb c (o_comps o) with
    | Some d => match dget cfg_eqb [1]%Z d with Some x => length (data x) =? n | None => false end
    | None => false
    end && (length (o_syms o) =? n)) false.
Lemma systemb_spec w c n : systemb w c n = true -> coordinate_system w c n /\ exists o, obj_of w c = Some o /\ length (o_syms o) = n.
Proof.
  intros H. apply andb_prop in H as [H1 H]. apply clsb_spec in H1. unfold obj_view in H.
  destruct (obj_of w c) as [o|] eqn:Eo; [|discriminate]. apply andb_prop in H as [H H3].
  destruct (dget Nat.eqb c (o_comps o)) as [d|] eqn:Ed; [|discriminate]. destruct (dget cfg_eqb [1]%Z d) as [x|] eqn:Ex; [|discriminate].
  apply Nat.eqb_eq in H, H3. split; [split; [exact H1|exists o, d, x; auto]|exists o; auto].
Qed.

Lemma ex_calc_typed : typed ex_calc_w.
Proof. apply typedb_spec. vmtrue. Qed.

Ltac cfg := repeat (apply Forall_cons; [auto|]); apply Forall_nil.
Ltac distinct := repeat (apply NoDup_cons; [cbn; intuition discriminate|]); apply NoDup_nil.

Lemma operand_ok (w : @world PolyOps) t s i c m o : obj_of w t = Some o -> o_indices o = i -> o_rank o = length i -> o_coords o = Some c -> o_metric o = Some m ->
  NoDup s -> length s = length i -> valid_cfg i -> labelled w (mkCalc (Some t) s RTensor) t o.
Proof.
  intros H1 H2 H3 H4 H5 H6 H7 H8. split; [reflexivity|]. split; [reflexivity|]. split; [exact H1|]. split; [exact H6|].
  cbn [c_syms]. rewrite H2. split; [exact H7|]. split; [exact H3|exact H8].
Qed.

(** C37: a mixed tensor in x, y plus a tensor of rank 2 stored in u, v with the symbols exchanged. *)
Definition ex_C := mkCalc (Some 8) ["a"; "b"]%string RTensor.
Definition ex_B := mkCalc (Some 7) ["b"; "a"]%string RTensor.
Lemma ex_add_hyps :
  typed ex_calc_w /\
  exists o1 o2 a1 w1 a2 w2,
    labelled ex_calc_w ex_C 8 o1 /\ labelled ex_calc_w ex_B 7 o2 /\
    o_metric o1 = Some 2 /\ o_metric o2 = Some 2 /\ o_coords o1 = Some 0 /\ coordinate_system ex_calc_w 0 2 /\
    Permutation (c_syms ex_C) (c_syms ex_B) /\ same_indices (c_syms ex_C) (o_indices o1) (c_syms ex_B) [-1; 1]%Z /\
    get_components 8 (Some 0) (Some (o_indices o1)) ex_calc_w = (Ok a1, w1) /\
    get_components 7 (Some 0) (Some [-1; 1]%Z) w1 = (Ok a2, w2) /\
    cubic 2 a1 /\ rank a1 = o_rank o1 /\ cubic 2 a2 /\ rank a2 = o_rank o2.
Proof.
  split; [apply ex_calc_typed|].
  destruct (view_spec ex_calc_w 8 [1; -1]%Z 0 2) as (o1 & A1 & A2 & A3 & A4 & A5); [vmtrue|].
  destruct (view_spec ex_calc_w 7 [1; 1]%Z 1 2) as (o2 & B1 & B2 & B3 & B4 & B5); [vmtrue|].
  destruct (got_spec 2 2 (get_components 8 (Some 0) (Some [1; -1]%Z)) ex_calc_w) as (a1 & w1 & E1 & Ew & C1 & R1); [vmtrue|].
  destruct (got_spec 2 2 (get_components 7 (Some 0) (Some [-1; 1]%Z)) w1) as (a2 & w2 & E2 & _ & C2 & R2); [rewrite Ew; vmtrue|]. clear Ew.
  exists o1, o2, a1, w1, a2, w2.
  split; [apply (operand_ok _ _ _ [1; -1]%Z 0 2); try assumption; [distinct|reflexivity|cfg]|].
  split; [apply (operand_ok _ _ _ [1; 1]%Z 1 2); try assumption; [distinct|reflexivity|cfg]|].
  split; [exact A5|]. split; [exact B5|]. split; [exact A4|]. split; [apply systemb_spec; vmtrue|].
  split; [apply perm_swap|]. split.
  { rewrite A2. split; [reflexivity|]. split; [reflexivity|]. intros x z. cbn. tauto. }
  rewrite A2. split; [exact E1|]. split; [exact E2|]. split; [exact C1|]. split; [rewrite R1, A3; reflexivity|]. split; [exact C2|]. rewrite R2, B3; reflexivity.
Qed.

(** C40: V("b") @ R("b c d"). *)
Definition ex_V := mkCalc (Some 3) ["b"]%string RTensor.
Definition ex_R := mkCalc (Some 5) ["b"; "c"; "d"]%string RTensor.
Lemma ex_matmul_hyps :
  typed ex_calc_w /\
  exists o1 o2 a1 w1 a2 w2,
    labelled ex_calc_w ex_V 3 o1 /\ labelled ex_calc_w ex_R 5 o2 /\
    o_metric o1 = Some 2 /\ o_metric o2 = Some 2 /\ o_coords o1 = Some 0 /\ o_coords o2 = Some 0 /\ coordinate_system ex_calc_w 0 2 /\
    0 < o_rank o1 /\ 0 < o_rank o2 /\
    opposite (c_syms ex_V) (o_indices o1) (c_syms ex_R) (o_indices o2) [-1; 1; 1]%Z /\
    get_components 3 (Some 0) (Some (o_indices o1)) ex_calc_w = (Ok a1, w1) /\
    get_components 5 (Some 0) (Some [-1; 1; 1]%Z) w1 = (Ok a2, w2) /\
    cubic 2 a1 /\ rank a1 = o_rank o1 /\ cubic 2 a2 /\ rank a2 = o_rank o2.
Proof.
  split; [apply ex_calc_typed|].
  destruct (view_spec ex_calc_w 3 [1]%Z 0 2) as (o1 & A1 & A2 & A3 & A4 & A5); [vmtrue|].
  destruct (view_spec ex_calc_w 5 [1; 1; 1]%Z 0 2) as (o2 & B1 & B2 & B3 & B4 & B5); [vmtrue|].
  destruct (got_spec 2 1 (get_components 3 (Some 0) (Some [1]%Z)) ex_calc_w) as (a1 & w1 & E1 & Ew & C1 & R1); [vmtrue|].
  destruct (got_spec 2 3 (get_components 5 (Some 0) (Some [-1; 1; 1]%Z)) w1) as (a2 & w2 & E2 & _ & C2 & R2); [rewrite Ew; vmtrue|]. clear Ew.
  exists o1, o2, a1, w1, a2, w2.
  split; [apply (operand_ok _ _ _ [1]%Z 0 2); try assumption; [distinct|reflexivity|cfg]|].
  split; [apply (operand_ok _ _ _ [1; 1; 1]%Z 0 2); try assumption; [distinct|reflexivity|cfg]|].
  split; [exact A5|]. split; [exact B5|]. split; [exact A4|]. split; [exact B4|]. split; [apply systemb_spec; vmtrue|].
  split; [rewrite A3; cbn; lia|]. split; [rewrite B3; cbn; lia|]. split.
  { rewrite A2, B2. split; [reflexivity|]. intros j x z Hx Hz.
    destruct j as [|[|[|j]]]; cbn in Hx, Hz; try (destruct j; discriminate); injection Hx as <-; injection Hz as <-.
    - split; [|intros N; exfalso; apply N; left; reflexivity]. intros p z1 H1 H2. destruct p as [|p]; cbn in H1, H2; [|destruct p; discriminate].
      injection H2 as <-. reflexivity.
    - split; [|reflexivity]. intros p z1 H1 H2. destruct p as [|p]; cbn in H1; [discriminate|destruct p; discriminate].
    - split; [|reflexivity]. intros p z1 H1 H2. destruct p as [|p]; cbn in H1; [discriminate|destruct p; discriminate]. }
  rewrite A2. split; [exact E1|]. split; [exact E2|]. split; [exact C1|]. split; [rewrite R1, A3; reflexivity|]. split; [exact C2|]. rewrite R2, B3; reflexivity.
Qed.

(** C42: R("a a b") *)
Definition default_storedb (n : nat) (o : @obj PolyOps) (c : oid) : bool :=
  match dget Nat.eqb c (o_comps o) with
  | Some d => match dget cfg_eqb (o_indices o) d with Some a => cubicb n (length (o_indices o)) a | None => false end
  | None => false
  end.
Lemma default_storedb_spec n o c : o_coords o = Some c -> default_storedb n o c = true ->
  exists a, stored_default o c a /\ cubic n a /\ rank a = length (o_indices o).
Proof.
  unfold default_storedb. intros Hc H. destruct (dget Nat.eqb c (o_comps o)) as [d|] eqn:Ed; [|discriminate].
  destruct (dget cfg_eqb (o_indices o) d) as [a|] eqn:Ea; [|discriminate]. apply cubicb_spec in H as [H1 H2].
  exists a. split; [split; [exact Hc|exists d; auto]|auto].
Qed.
Definition tablesb (n : nat) (o : @obj PolyOps) (c : oid) : bool :=
  match dget Nat.eqb c (o_comps o) with
  | Some d => forallb (fun i => match dget cfg_eqb i d with Some a => cubicb n 2 a | None => false end) [[1; 1]; [1; -1]; [-1; 1]; [-1; -1]]%Z
  | None => false
  end.
Lemma tablesb_spec n o c : o_coords o = Some c -> length (o_indices o) = 2 -> tablesb n o c = true -> exists G, metric_tables n o c G.
Proof.
  unfold tablesb. intros Hc Hl H. destruct (dget Nat.eqb c (o_comps o)) as [d|] eqn:Ed; [|discriminate].
  exists (fun z0 z1 => match dget cfg_eqb [z0; z1] d with Some a => a | None => mkArr [] [] end).
  split; [exact Hc|]. split; [exact Hl|]. exists d. split; [exact Ed|]. intros z0 z1 V. rewrite forallb_forall in H.
  assert (I : In [z0; z1] [[1; 1]; [1; -1]; [-1; 1]; [-1; -1]]%Z).
  { inversion V as [|? ? V0 V']; subst. inversion V' as [|? ? V1 _]; subst. destruct V0 as [-> | ->], V1 as [-> | ->]; cbn; auto. }
  apply H in I. destruct (dget cfg_eqb [z0; z1] d); [|discriminate]. apply cubicb_spec in I. auto.
Qed.

Lemma ex_trace_hyps :
  typed ex_calc_w /\
  exists o om G a, cls_of ex_calc_w 5 = Some CTensor /\ obj_of ex_calc_w 5 = Some o /\ stored_default o 0 a /\ cubic 2 a /\
    rank a = length (o_indices o) /\ o_rank o = length (o_indices o) /\ valid_cfg (o_indices o) /\
    length ["a"; "a"; "b"]%string = length (o_indices o) /\
    o_metric o = Some 2 /\ obj_of ex_calc_w 2 = Some om /\ metric_tables 2 om 0 G /\ coordinate_system ex_calc_w 0 2.
Proof.
  split; [apply ex_calc_typed|].
  destruct (view_spec ex_calc_w 5 [1; 1; 1]%Z 0 2) as (o & B1 & B2 & B3 & B4 & B5); [vmtrue|].
  assert (S : obj_view ex_calc_w 5 (fun o => default_storedb 2 o 0) false = true) by vmtrue.
  assert (T : obj_view ex_calc_w 2 (fun o => opt_eqb (o_coords o) 0 && (length (o_indices o) =? 2) && tablesb 2 o 0) false = true) by vmtrue.
  unfold obj_view in S, T. rewrite B1 in S. destruct (default_storedb_spec _ _ _ B4 S) as (a & S1 & S2 & S3).
  destruct (obj_of ex_calc_w 2) as [om|]; [|discriminate]. apply andb_prop in T as [T T3]. apply andb_prop in T as [T1 T2].
  apply opt_eqb_spec in T1. apply Nat.eqb_eq in T2. destruct (tablesb_spec _ _ _ T1 T2 T3) as [G HG].
  exists o, om, G, a. split; [apply clsb_spec; vmtrue|]. split; [exact B1|]. split; [exact S1|]. split; [exact S2|]. split; [exact S3|].
  rewrite B2. split; [exact B3|]. split; [cfg|]. split; [reflexivity|]. split; [exact B5|]. split; [reflexivity|]. split; [exact HG|]. apply systemb_spec; vmtrue.
Qed.

(** C44 *)
Lemma ex_derivative_hyps :
  typed ex_calc_w /\ coordinate_system ex_calc_w 0 2 /\
  exists o oc a w1 b w2, labelled ex_calc_w ex_C 8 o /\ o_metric o = Some 2 /\ o_coords o = Some 0 /\
    obj_of ex_calc_w 0 = Some oc /\ length (o_syms oc) = 2 /\ ~ In "c"%string (c_syms ex_C) /\ nth_error (c_syms ex_C) 1 = Some "b"%string /\
    get_components 8 (Some 0) (Some (o_indices o)) ex_calc_w = (Ok a, w1) /\ cubic 2 a /\ rank a = o_rank o /\
    get_components 8 (Some 0) (Some (set_nth 1 1%Z (o_indices o))) ex_calc_w = (Ok b, w2) /\ cubic 2 b /\ rank b = o_rank o.
Proof.
  split; [apply ex_calc_typed|]. split; [apply systemb_spec; vmtrue|].
  destruct (view_spec ex_calc_w 8 [1; -1]%Z 0 2) as (o1 & A1 & A2 & A3 & A4 & A5); [vmtrue|].
  destruct (got_spec 2 2 (get_components 8 (Some 0) (Some [1; -1]%Z)) ex_calc_w) as (a1 & w1 & E1 & _ & C1 & R1); [vmtrue|].
  destruct (got_spec 2 2 (get_components 8 (Some 0) (Some [1; 1]%Z)) ex_calc_w) as (a2 & w2 & E2 & _ & C2 & R2); [vmtrue|].
  destruct (systemb_spec ex_calc_w 0 2) as (_ & oc & Oc & Lc); [vmtrue|].
  exists o1, oc, a1, w1, a2, w2.
  split; [apply (operand_ok _ _ _ [1; -1]%Z 0 2); try assumption; [distinct|reflexivity|cfg]|].
  split; [exact A5|]. split; [exact A4|]. split; [exact Oc|]. split; [exact Lc|]. split; [cbn; intuition discriminate|]. split; [reflexivity|].
  rewrite A2, A3. split; [exact E1|]. split; [exact C1|]. split; [exact R1|]. split; [exact E2|]. split; [exact C2|exact R2].
Qed.

(** C46 *)
Lemma ex_run_hyps :
  typed ex_calc_w /\ integrity ex_calc_w /\ temps_unused ex_calc_w /\ ~ named ex_calc_w "TEMP" 2 /\ ~ named ex_calc_w "TEMP" 0 /\
  exists o a, labelled ex_calc_w ex_C 8 o /\ o_metric o = Some 2 /\ stored_default o 0 a /\ coordinate_system ex_calc_w 0 2 /\
    cls_of ex_calc_w 8 = Some CTensor /\ cubic 2 a /\ rank a = o_rank o /\ Permutation (c_syms ex_C) ["b"; "a"]%string.
Proof.
  split; [apply ex_calc_typed|]. split; [apply reachable_integrity, ex_calc_reachable|].
  split.
  { intros j Hj Hn. exfalso. assert (F : forallb (fun j => negb (is_named ex_calc_w "TEMP" j)) (insts ex_calc_w) = true) by vmtrue.
    rewrite forallb_forall in F. apply F in Hj. apply is_named_spec in Hn. rewrite Hn in Hj. discriminate. }
  assert (F : forallb (fun j => negb (is_named ex_calc_w "TEMP" j)) [2; 0] = true) by vmtrue.
  apply Forall_not_named in F. inversion F as [|? ? F1 F']; subst. inversion F' as [|? ? F2 _]; subst.
  split; [exact F1|]. split; [exact F2|].
  destruct (view_spec ex_calc_w 8 [1; -1]%Z 0 2) as (o & A1 & A2 & A3 & A4 & A5); [vmtrue|].
  assert (S : obj_view ex_calc_w 8 (fun o => default_storedb 2 o 0) false = true) by vmtrue.
  unfold obj_view in S. rewrite A1 in S. destruct (default_storedb_spec _ _ _ A4 S) as (a & S1 & S2 & S3).
  exists o, a. split; [apply (operand_ok _ _ _ [1; -1]%Z 0 2); try assumption; [distinct|reflexivity|cfg]|].
  split; [exact A5|]. split; [exact S1|]. split; [apply systemb_spec; vmtrue|]. split; [apply clsb_spec; vmtrue|]. split; [exact S2|].
  split; [rewrite S3, A2, A3; reflexivity|apply perm_swap].
Qed.

(** C38 *)
Lemma ex_mismatch : ~ Permutation (c_syms ex_C) ["a"; "c"]%string /\ c_role (mkCalc None ["a"]%string RPartial) <> RTensor.
Proof.
  split; [|discriminate]. intros H. assert (I : In "c"%string (c_syms ex_C)) by (eapply Permutation_in; [symmetry; exact H|cbn; auto]).
  cbn in I. intuition discriminate.
Qed.
