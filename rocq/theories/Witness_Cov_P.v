(** Concrete covariant derivatives. *)
From Coq Require Import QArith Qcanon.
From Verif Require Import Alg Alg_P Arr Arr_P Spec UtilsM Arr2_P Act_P TensorM Inst Ex WorldM SpecWorld World_P Registry_P CalcM SpecCalc Calc_P CurvM SpecCurv SpecCov Curv2_P CurvRun_P Cov4_P ExWorld Witness_World_P Witness_History_P Witness_Calc_P Witness_Curv_P.
Local Open Scope nat_scope.

(** C100, C101: the tensor C^a_b in a session with a metric that is not constant *)
Lemma ex_covariant_hyps :
  metric_session ex_calc_w 2 2 0 "g" ex_xs (mat2 ex_g) (mat2 ex_gi) /\ known_results 2 ex_xs (mat2 ex_g) (mat2 ex_gi) ex_calc_w 2 0 "g" /\
  (exists h, tensor_value ex_calc_w 2 2 0 8 [1; -1]%Z h) /\ ~ named ex_calc_w "TEMP" 8 /\ valid_cfg [1; -1]%Z /\
  NoDup ["a"; "b"; "c"]%string /\ two_letters_free ["a"; "b"; "c"]%string.
Proof.
  split; [apply sessionb_spec; [apply ex_calc_reachable|vmtrue]|]. split; [apply known_none; vmtrue|].
  split; [|split; [|split; [cfg|split; [distinct|apply letters_free; cbn; lia]]]].
  - destruct (view_spec ex_calc_w 8 [1; -1]%Z 0 2) as (o & A1 & A2 & A3 & A4 & A5); [vmtrue|].
    assert (S : obj_view ex_calc_w 8 (fun o => default_storedb 2 o 0) false = true) by vmtrue.
    unfold obj_view in S. rewrite A1 in S. destruct (default_storedb_spec _ _ _ A4 S) as (a & S1 & S2 & S3).
    exists (aget a), CTensor, o, a. split; [apply clsb_spec; vmtrue|]. split; [discriminate|]. split; [exact A1|]. split; [exact A5|]. split; [exact A2|]. split; [exact A3|].
    split; [exact S1|]. split; [exact S2|]. rewrite A2 in S3. split; [exact S3|]. intros idx _. reflexivity.
  - assert (F : forallb (fun j => negb (is_named ex_calc_w "TEMP" j)) [8] = true) by vmtrue.
    apply Forall_not_named in F. inversion F; subst; assumption.
Qed.

(** C102 *)
Lemma right_covariant_witness :
  exists (w : @world PolyOps) t x w0 d z1 w1 z2 w2 t1 r1 w3 t2 r2 w4 f,
  reachable w /\ calc_call t ["b"]%string w = (Ok x, w0) /\ CovariantD ["a"]%string w0 = (Ok d, w0) /\
  matmul d x w0 = (Ok z1, w1) /\ c_tensor z1 = Some t1 /\ get_components t1 None None w1 = (Ok r1, w3) /\
  matmul x d w0 = (Ok z2, w2) /\ c_tensor z2 = Some t2 /\ get_components t2 None None w2 = (Ok r2, w4) /\
  Permutation (c_syms z1) (c_syms z2) /\
  ~ keq (aget r1 (map f (c_syms z1))) (aget r2 (map f (c_syms z2))).
Proof.
  pose (f := fun s : string => if String.eqb s "a" then 1 else 0).
  destruct (out_ok (calc_call 4 ["b"]%string) ex_calc_w) as (x & w0 & E0 & _); [vmtrue|].
  destruct (differ3_spec (let! x := calc_call 4 ["b"]%string in let! z1 := matmul (mkCalc None ["a"]%string RCovariant) x in
     let! u := mlift (if list_eq_dec string_dec (c_syms z1) ["a"; "b"]%string then Ok tt else Err EValueError) in
     let! t1 := mopt EAttributeError (c_tensor z1) in let! r1 := get_components t1 None None in @mret PolyOps (@K PolyOps) (aget r1 (map f (c_syms z1))))
    (let! x := calc_call 4 ["b"]%string in let! z1 := matmul x (mkCalc None ["a"]%string RCovariant) in
     let! u := mlift (if list_eq_dec string_dec (c_syms z1) ["b"; "a"]%string then Ok tt else Err EValueError) in
     let! t1 := mopt EAttributeError (c_tensor z1) in let! r1 := get_components t1 None None in @mret PolyOps (@K PolyOps) (aget r1 (map f (c_syms z1))))
    ex_calc_w v12) as (a & w4 & b & w5 & H & H' & N); [vmtrue|].
  rewrite (bind_ok _ _ _ _ _ E0) in H. rewrite (bind_ok _ _ _ _ _ E0) in H'.
  apply bind_inv in H as (z1 & w1 & E1 & H). apply bind_inv in H as (u & w1' & E2 & H). destruct (list_eq_dec string_dec (c_syms z1) ["a"; "b"]%string) as [Y1|]; [|discriminate E2]. apply ret_inv in E2 as [_ ->].
  apply bind_inv in H as (t1 & w1' & E3 & H). apply mopt_inv in E3 as [E3 ->]. apply bind_inv in H as (r1 & w3 & E4 & H). apply ret_inv in H as [-> _].
  apply bind_inv in H' as (z2 & w2 & E1' & H'). apply bind_inv in H' as (u' & w2' & E2' & H'). destruct (list_eq_dec string_dec (c_syms z2) ["b"; "a"]%string) as [Y2|]; [|discriminate E2']. apply ret_inv in E2' as [_ ->].
  apply bind_inv in H' as (t2 & w2' & E3' & H'). apply mopt_inv in E3' as [E3' ->]. apply bind_inv in H' as (r2 & w6 & E4' & H'). apply ret_inv in H' as [-> _].
  exists ex_calc_w, 4, x, w0, (mkCalc None ["a"]%string RCovariant), z1, w1, z2, w2, t1, r1, w3, t2, r2, w6, f.
  split; [apply ex_calc_reachable|]. split; [exact E0|]. split; [reflexivity|]. split; [exact E1|]. split; [exact E3|]. split; [exact E4|]. split; [exact E1'|]. split; [exact E3'|]. split; [exact E4'|].
  split; [rewrite Y1, Y2; constructor|exact N].
Qed.

(** C103: the expression of the Killing equation *)
Lemma killing_witness :
  exists (w : @world PolyOps) t x w0 z1 w1 y w2 z2 w3 w4,
  reachable w /\ calc_call t ["b"]%string w = (Ok x, w0) /\ matmul (mkCalc None ["a"]%string RCovariant) x w0 = (Ok z1, w1) /\
  calc_call t ["a"]%string w1 = (Ok y, w2) /\ matmul (mkCalc None ["b"]%string RCovariant) y w2 = (Ok z2, w3) /\
  c_syms z1 = ["a"; "b"]%string /\ c_syms z2 = ["b"; "a"]%string /\ calc_add z1 (OCalc z2) w3 = (Err EValueError, w4).
Proof.
  pose (p := let! x := calc_call 3 ["b"]%string in let! z1 := matmul (mkCalc None ["a"]%string RCovariant) x in
     let! y := calc_call 3 ["a"]%string in let! z2 := matmul (mkCalc None ["b"]%string RCovariant) y in
     let! u := mlift (if list_eq_dec string_dec (c_syms z1) ["a"; "b"]%string then Ok tt else Err ETypeError) in
     let! u := mlift (if list_eq_dec string_dec (c_syms z2) ["b"; "a"]%string then Ok tt else Err ETypeError) in
     mret (z1, z2) : @M PolyOps (calc * calc)).
  assert (C : is_err EValueError (fst ((let! (z1, z2) := p in calc_add z1 (OCalc z2)) ex_w)) = true) by vmtrue.
  destruct (out_ok p ex_w) as ([z1 z2] & w3 & H & _); [vmtrue|].
  rewrite (bind_ok _ _ _ _ _ H) in C. destruct (out_err _ _ _ C) as (w4 & E4 & _).
  unfold p in H. apply bind_inv in H as (x & w0 & E0 & H). apply bind_inv in H as (z1' & w1 & E1 & H). apply bind_inv in H as (y & w2 & E2 & H). apply bind_inv in H as (z2' & w3' & E3 & H).
  apply bind_inv in H as (u & w5 & C1 & H). destruct (list_eq_dec string_dec (c_syms z1') ["a"; "b"]%string) as [Y1|]; [|discriminate C1]. apply ret_inv in C1 as [_ ->].
  apply bind_inv in H as (u' & w5 & C2 & H). destruct (list_eq_dec string_dec (c_syms z2') ["b"; "a"]%string) as [Y2|]; [|discriminate C2]. apply ret_inv in C2 as [_ ->].
  apply ret_inv in H as [H ->]. injection H as -> ->.
  exists ex_w, 3, x, w0, z1', w1, y, w2, z2', w3', w4. split; [apply ex_w_reachable|]. split; [exact E0|]. split; [exact E1|]. split; [exact E2|]. split; [exact E3|]. split; [exact Y1|]. split; [exact Y2|exact E4].
Qed.
