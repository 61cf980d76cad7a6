(** Concrete covariant derivatives under chosen index letters. *)
From Coq Require Import QArith Qcanon Ascii.
From Verif Require Import Alg Alg_P Arr Arr_P Spec UtilsM Arr2_P Act_P TensorM Inst Ex WorldM SpecWorld World_P Registry_P CalcM SpecCalc Calc_P CurvM SpecCurv SpecCov Curv2_P CurvRun_P Cov4_P ExWorld Witness_World_P Witness_History_P Witness_Calc_P Witness_Curv_P Witness_Cov_P SpecGeod GeodM Witness_Geod_P.
From Verif Require Import Base LexM InterpM OptionsM SpecOptions Options_P LettersM Letters_P Witness_Options_P.
Local Open Scope nat_scope.

(** C172: Greek letters *)
Definition ex_letters : list string := ["mu"; "nu"; "a"; "sigma"]%string.
Lemma ex_letters_case : 2 <= length ex_letters /\ separator (chars " ") /\ Forall plain_letter (map chars ex_letters) /\ free_letters ex_letters ["a"; "b"; "mu"]%string.
Proof.
  split; [cbn; lia|]. split; [split; [discriminate|left; repeat constructor]|].
  split; [repeat constructor; discriminate|].
  split; [distinct|]. exists "nu"%string, "sigma"%string. cbn. repeat split; try discriminate; intuition discriminate.
Qed.

(** C173: the default letters, and twice the same letter *)
Definition ex_default : options := mkOptions true (Tuple (map chars english_names)) (chars "lambda") 6 14 false.
Definition ex_double : options := set_letters (Tuple [chars "i"; chars "i"]) ex_default.

Lemma double_letter_witness :
  exists (N : NameOps) o s o', default_options = Ok o /\ set_index_letters (AText s) o = (Ok tt, o') /\
  exists (w : @world PolyOps) t x w0 d z1 w1 t1 r1 w2 z2 w3 t2 r2 w4,
  reachable w /\ calc_call t ["a"]%string w = (Ok x, w0) /\ CovariantD ["a"]%string w0 = (Ok d, w0) /\
  matmul_in o d x w0 = (Ok z1, w1) /\ c_syms z1 = [] /\ c_tensor z1 = Some t1 /\ get_components t1 None None w1 = (Ok r1, w2) /\
  matmul_in o' d x w0 = (Ok z2, w3) /\ c_syms z2 = [] /\ c_tensor z2 = Some t2 /\ get_components t2 None None w3 = (Ok r2, w4) /\
  ~ keq (aget r1 []) (aget r2 []).
Proof.
  exists PlainNames, ex_default, (chars "i i"), ex_double. split; [reflexivity|]. split; [reflexivity|].
  destruct (out_ok (calc_call 4 ["a"]%string) ex_calc_w) as (x & w0 & E0 & _); [vmtrue|].
  pose (p := fun o => let! x := calc_call 4 ["a"]%string in let! z1 := matmul_in o (mkCalc None ["a"]%string RCovariant) x in
     let! u := mlift (if list_eq_dec string_dec (c_syms z1) [] then Ok tt else Err EValueError) in
     let! t1 := mopt EAttributeError (c_tensor z1) in let! r1 := get_components t1 None None in @mret PolyOps (@K PolyOps) (aget r1 [])).
  destruct (differ3_spec (p ex_default) (p ex_double) ex_calc_w v12) as (a & w5 & b & w6 & H & H' & N); [vmtrue|]. unfold p in H, H'.
  rewrite (bind_ok _ _ _ _ _ E0) in H. rewrite (bind_ok _ _ _ _ _ E0) in H'.
  apply bind_inv in H as (z1 & w1 & E1 & H). apply bind_inv in H as (u & w1' & E2 & H). destruct (list_eq_dec string_dec (c_syms z1) []) as [Y1|]; [|discriminate E2]. apply ret_inv in E2 as [_ ->].
  apply bind_inv in H as (t1 & w1' & E3 & H). apply mopt_inv in E3 as [E3 ->]. apply bind_inv in H as (r1 & w2 & E4 & H). apply ret_inv in H as [-> _].
  apply bind_inv in H' as (z2 & w3 & E1' & H'). apply bind_inv in H' as (u' & w3' & E2' & H'). destruct (list_eq_dec string_dec (c_syms z2) []) as [Y2|]; [|discriminate E2']. apply ret_inv in E2' as [_ ->].
  apply bind_inv in H' as (t2 & w3' & E3' & H'). apply mopt_inv in E3' as [E3' ->]. apply bind_inv in H' as (r2 & w4 & E4' & H'). apply ret_inv in H' as [-> _].
  exists ex_calc_w, 4, x, w0, (mkCalc None ["a"]%string RCovariant), z1, w1, t1, r1, w2, z2, w3, t2, r2, w4.
  split; [apply ex_calc_reachable|]. split; [exact E0|]. split; [reflexivity|]. split; [exact E1|]. split; [exact Y1|]. split; [exact E3|]. split; [exact E4|].
  split; [exact E1'|]. split; [exact Y2|]. split; [exact E3'|]. split; [exact E4'|exact N].
Qed.

(** All letters in use: CovariantD("i") @ C("j k") with the letters i, j, k *)
Definition ex_few : list string := ["i"; "j"; "k"]%string.
Lemma ex_few_case : 2 <= length ex_few /\ separator (chars ", ") /\ Forall plain_letter (map chars ex_few) /\ NoDup ["i"; "j"; "k"]%string /\
  (forall s, In s ex_few -> In s ["i"; "j"; "k"]%string).
Proof.
  split; [cbn; lia|]. split; [split; [discriminate|right; exists [], (chars " "); repeat split; repeat constructor]|].
  split; [repeat constructor; discriminate|]. split; [distinct|auto].
Qed.

(** C174: a parameter tau *)
Definition staticb_along (p : string) (n : nat) (xs : list string) (g : nat -> nat -> pexp) : bool :=
  negb (existsb (String.eqb p) xs) && forallb (fun i => forallb (fun j => pisz (pdiff p (g i j))) (seq 0 n)) (seq 0 n).
Lemma static_change p n xs g : @static_metric PolyOps n xs g -> staticb_along p n xs g = true -> @static_along PolyOps p n xs g.
Proof.
  intros (H1 & H2 & H3 & H4) H. unfold staticb_along in H. apply andb_prop in H as [Ha Hb]. split; [exact H1|].
  split. { intros Hin. apply negb_true_iff in Ha. apply not_true_iff_false in Ha. apply Ha. apply existsb_exists. eexists. split; [exact Hin|apply String.eqb_refl]. }
  split; [exact H3|]. intros i j Hi Hj. split; [|apply H4; assumption].
  rewrite forallb_forall in Hb. specialize (Hb i (proj2 (in_seq n 0 i) ltac:(lia))). rewrite forallb_forall in Hb. apply pisz_ok, Hb, in_seq. lia.
Qed.
Lemma ex_parameter_case : metric_session ex_w 2 2 0 "g" ex_xs (mat2 ex_g) (mat2 ex_gi) /\
  known_results 2 ex_xs (mat2 ex_g) (mat2 ex_gi) ex_w 2 0 "g" /\ known_curves 2 ex_xs (mat2 ex_g) (mat2 ex_gi) ex_w 2 0 "g" /\
  static_along "tau" 2 ex_xs (mat2 ex_g) /\ plain_letter (chars "tau") /\ small_letters (chars "tau") <> chars "automatic".
Proof.
  destruct ex_curve_session as (H1 & H2 & H3 & H4). split; [exact H1|]. split; [exact H2|]. split; [exact H3|]. split; [apply static_change; [exact H4|vmtrue]|].
  split; [repeat split; try discriminate; repeat constructor; discriminate|discriminate].
Qed.

(** C175: the parameter is the first coordinate *)
Definition v175 (s : string) : Qc := if String.eqb s "xddot" then 1%Qc else if String.eqb s "xdot" then (1 + 1)%Qc else if String.eqb s "yddot" then (- (1 + 1 + 1 + 1))%Qc else 0%Qc.
Lemma coordinate_parameter_witness :
  exists (N : NameOps) o s o', default_options = Ok o /\ set_curve_parameter (AText s) o = (Ok tt, o') /\
  exists (w : @world PolyOps) m c oc t w1 r w2,
  reachable w /\ obj_of w c = Some oc /\ calc_geodesic_lagrangian_in o' m None w = (Ok t, w1) /\ get_components t (Some c) None w1 = (Ok r, w2) /\
  exists g gi w3 w4, get_components m (Some c) (Some [-1; -1]%Z) w2 = (Ok g, w3) /\ get_components m (Some c) (Some [1; 1]%Z) w3 = (Ok gi, w4) /\
  keq (aget r [0]) k0 /\ ~ keq (Geo_lowered 2 (o_syms oc) (mat2 g) (mat2 gi) 0) k0 /\
  ~ unit_multiple (aget r [1]) (Geo_lowered 2 (o_syms oc) (mat2 g) (mat2 gi) 1).
Proof.
  exists PlainNames, ex_default, (chars "x"), (set_parameter (chars "x") ex_default). split; [reflexivity|]. split; [reflexivity|].
  destruct (zero_apart_spec
    (let! oc := @getobj PolyOps 0 in let! t := @calc_geodesic_lagrangian_in PolyOps (set_parameter (chars "x") ex_default) 2 None in
     let! r := get_components t (Some 0) None in
     let! g := get_components 2 (Some 0) (Some [-1; -1]%Z) in let! gi := get_components 2 (Some 0) (Some [1; 1]%Z) in
     let! u := mlift (if pisz (@aget PolyOps r [0]) && negb (Qeq_bool (this (peval Qc_alg v175 (@Geo_lowered PolyOps 2 (o_syms oc) (mat2 g) (mat2 gi) 0))) 0) then Ok tt else Err EValueError) in
     mret (aget r [1], Geo_lowered 2 (o_syms oc) (mat2 g) (mat2 gi) 1)) ex_w v175) as (x & y & w' & H & N); [vmtrue|].
  apply bind_inv in H as (oc & w0' & E1 & H). apply getobj_inv in E1 as [E1 ->]. apply bind_inv in H as (t & w1 & E0 & H).
  apply bind_inv in H as (r & w2 & E4 & H). apply bind_inv in H as (g & w3 & E2 & H). apply bind_inv in H as (gi & w4 & E3 & H).
  apply bind_inv in H as (u & w5 & E5 & H). destruct (pisz _ && _)%bool eqn:Z in E5; [|discriminate E5]. apply ret_inv in E5 as [_ ->].
  apply ret_inv in H as [H _]. injection H as -> ->. apply andb_prop in Z as [Z1 Z2].
  exists ex_w, 2, 0, oc, t, w1, r, w2. split; [apply ex_w_reachable|]. split; [exact E1|]. split; [exact E0|]. split; [exact E4|].
  exists g, gi, w3, w4. split; [exact E2|]. split; [exact E3|]. split; [apply pisz_ok, Z1|]. split; [|exact N].
  intros E. apply (peq_Qc _ _ v175) in E. rewrite E in Z2. discriminate Z2.
Qed.

