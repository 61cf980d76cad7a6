(** Properties of covariant derivatives under chosen index letters and of geodesic equations under
    a chosen curve parameter: C172 - C175. *)
From Coq Require Import Ascii.
From Verif Require Import Alg Arr Spec TensorM WorldM SpecWorld CalcM SpecCalc CurvM SpecCurv SpecCov Base LexM InterpM OptionsM SpecOptions SpecGeod GeodM LettersM Letters_P Cov4_P Inst Ex ExWorld Witness_Options_P Witness_Curv_P Witness_Letters_P.
Local Open Scope nat_scope.

Section Letters.
Context {A : AlgOps} {L : AlgLaws A} {D : DiffLaws A}.
Variables (n : nat) (m c : oid) (name : string) (xs : list string) (g gi : nat -> nat -> K).
Notation session w := (metric_session w n m c name xs g gi).
Notation known w := (known_results n xs g gi w m c name).
Notation Gam := (Gam n xs g gi).
Notation yields := (yields n xs g gi).

(** C172.  After set_index_letters with different letters, of which two are not used as symbols,
    covariant derivatives and divergences of tensors of every rank have the textbook value. *)
Theorem C172_gradient_under_letters (N : NameOps) sep l o : 2 <= length l -> separator sep -> Forall plain_letter (map chars l) ->
  exists o', set_index_letters (AText (separated sep (map chars l))) o = (Ok tt, o') /\
  forall w t i h syms a, session w -> known w -> tensor_value w n m c t i h -> ~ named w "TEMP" t -> valid_cfg i ->
    NoDup (a :: syms) -> length syms = length i -> free_letters l (a :: syms) ->
    yields (let! d := CovariantD [a] in let! x := calc_call t syms in matmul_in o' d x) m c name [(name ++ " Christoffel")%string]
      (a :: syms) (-1 :: i)%Z (fun idx => covariant_of n (cx xs) Gam i h (nth 0 idx 0) (tl idx)) w.
Proof. exact (gradient_letters n m c name xs g gi N sep l o). Qed.

Theorem C172_divergence_under_letters (N : NameOps) sep l o : 2 <= length l -> separator sep -> Forall plain_letter (map chars l) ->
  exists o', set_index_letters (AText (separated sep (map chars l))) o = (Ok tt, o') /\
  forall w t i h l1 l2 a, session w -> known w -> tensor_value w n m c t i h -> ~ named w "TEMP" t -> valid_cfg i ->
    NoDup (l1 ++ a :: l2) -> length (l1 ++ a :: l2) = length i -> free_letters l (l1 ++ a :: l2) ->
    yields (let! d := CovariantD [a] in let! x := calc_call t (l1 ++ a :: l2) in matmul_in o' d x) m c name [(name ++ " Christoffel")%string]
      (l1 ++ l2) (firstn (length l1) i ++ skipn (S (length l1)) i) (divergence_of n (cx xs) Gam gi i h (length l1)) w.
Proof. exact (divergence_letters n m c name xs g gi N sep l o). Qed.

(** Two letters more than symbols are enough. *)
Theorem C172_enough_letters l syms : NoDup l -> length syms + 2 <= length l -> free_letters l syms.
Proof. exact (enough_letters l syms). Qed.

(** The key words. *)
Theorem C172_keywords (N : NameOps) s o : keyword s ->
  exists o' l, set_index_letters (AText s) o = (Ok tt, o') /\ (forall x y, matmul_in o' x y = matmul_with (Ok l) x y) /\ NoDup l /\
    (small_letters s = chars "greek" -> l = greek_names) /\
    (small_letters s <> chars "greek" -> l = english_names /\ forall x y, matmul_in o' x y = matmul x y).
Proof. exact (keyword_letters N s o). Qed.

(** C173.  Accepted letters that make covariant derivatives impossible: all letters are in use,
    or there is one letter alone. *)
Theorem C173_all_letters_in_use (N : NameOps) sep l o : 2 <= length l -> separator sep -> Forall plain_letter (map chars l) ->
  exists o', set_index_letters (AText (separated sep (map chars l))) o = (Ok tt, o') /\
  forall w t i h syms a, session w -> known w -> tensor_value w n m c t i h -> valid_cfg i -> NoDup syms -> length syms = length i ->
    (forall s, In s l -> In s (a :: syms)) ->
    exists w', (let! d := CovariantD [a] in let! x := calc_call t syms in matmul_in o' d x) w = (Err EIndexError, w').
Proof. exact (few_letters_derivative n m c name xs g gi N sep l o). Qed.

Theorem C173_one_letter (N : NameOps) x o : plain_letter x -> ~ keyword x ->
  exists o', set_index_letters (AText x) o = (Ok tt, o') /\
  forall w t i h syms a, session w -> known w -> tensor_value w n m c t i h -> valid_cfg i -> NoDup syms -> length syms = length i ->
    exists w', (let! d := CovariantD [a] in let! x := calc_call t syms in matmul_in o' d x) w = (Err ETypeError, w').
Proof. exact (one_letter_derivative n m c name xs g gi N x o). Qed.
End Letters.
Print Assumptions C172_gradient_under_letters.
Print Assumptions C172_divergence_under_letters.
Print Assumptions C172_enough_letters.
Print Assumptions C172_keywords.
Print Assumptions C173_all_letters_in_use.
Print Assumptions C173_one_letter.

(** The hypotheses about letters; those about sessions are met as in Props_Cov.v. *)
Example C172_hypotheses_met : 2 <= length ex_letters /\ separator (chars " ") /\ Forall plain_letter (map chars ex_letters) /\
  free_letters ex_letters ["a"; "b"; "mu"]%string.
Proof. exact ex_letters_case. Qed.
Example C173_hypotheses_met : 2 <= length ex_few /\ separator (chars ", ") /\ Forall plain_letter (map chars ex_few) /\
  NoDup ["i"; "j"; "k"]%string /\ (forall s, In s ex_few -> In s ["i"; "j"; "k"]%string).
Proof. exact ex_few_case. Qed.
Example C173_one_letter_met : plain_letter (chars "i") /\ ~ keyword (chars "i").
Proof. exact ex_i_plain. Qed.

(** C173.  The property is false: a letter given twice is accepted, and the divergence of a
    vector silently has another value. *)
Theorem C173_repeated_letter_refuted :
  exists (N : NameOps) o s o', default_options = Ok o /\ set_index_letters (AText s) o = (Ok tt, o') /\
  exists (w : @world PolyOps) t x w0 d z1 w1 t1 r1 w2 z2 w3 t2 r2 w4,
  reachable w /\ calc_call t ["a"]%string w = (Ok x, w0) /\ CovariantD ["a"]%string w0 = (Ok d, w0) /\
  matmul_in o d x w0 = (Ok z1, w1) /\ c_syms z1 = [] /\ c_tensor z1 = Some t1 /\ get_components t1 None None w1 = (Ok r1, w2) /\
  matmul_in o' d x w0 = (Ok z2, w3) /\ c_syms z2 = [] /\ c_tensor z2 = Some t2 /\ get_components t2 None None w3 = (Ok r2, w4) /\
  ~ keq (aget r1 []) (aget r2 []).
Proof. exact double_letter_witness. Qed.
Print Assumptions C173_repeated_letter_refuted.

Section CurveOption.
Context {A : AlgOps} {L : AlgLaws A} {D : DiffLaws A} {C : CleanLaws A} {Y : SymLaws A}.
Variables (n : nat) (m c : oid) (name : string) (xs : list string) (g gi : nat -> nat -> K).

(** C174.  After set_curve_parameter with a symbol or a name that is neither a coordinate nor in
    the metric, the geodesic equations from the Lagrangian are the textbook equations. *)
Theorem C174_geodesics_under_parameter (N : NameOps) arg p o :
  arg = ASymbol (chars p) \/ arg = AText (chars p) /\ plain_letter (chars p) /\ small_letters (chars p) <> chars "automatic" ->
  exists o', set_curve_parameter arg o = (Ok tt, o') /\
  forall w coords, metric_session w n m c name xs g gi -> known_results n xs g gi w m c name -> known_curves n xs g gi w m c name ->
    static_along p n xs g -> coords = None \/ coords = Some c ->
    gives_curve n xs g gi (calc_geodesic_lagrangian_in o' m coords) m c name
      [(name ++ " Lagrangian")%string; (name ++ " Geodesic From Lagrangian")%string] CGeodesic [1]%Z (is_geodesic n (Geo_lowered n xs g gi)) w.
Proof. exact (geodesic_parameter n m c name xs g gi N arg p o). Qed.
End CurveOption.
Print Assumptions C174_geodesics_under_parameter.
Example C174_hypotheses_met : metric_session ex_w 2 2 0 "g" ex_xs (mat2 ex_g) (mat2 ex_gi) /\
  known_results 2 ex_xs (mat2 ex_g) (mat2 ex_gi) ex_w 2 0 "g" /\ known_curves 2 ex_xs (mat2 ex_g) (mat2 ex_gi) ex_w 2 0 "g" /\
  static_along "tau" 2 ex_xs (mat2 ex_g) /\ plain_letter (chars "tau") /\ small_letters (chars "tau") <> chars "automatic".
Proof. exact ex_parameter_case. Qed.

(** C175.  The property is false for a parameter that is a coordinate: it is accepted, the
    equation of this coordinate is 0 and the others are wrong. *)
Theorem C175_parameter_is_coordinate_refuted :
  exists (N : NameOps) o s o', default_options = Ok o /\ set_curve_parameter (AText s) o = (Ok tt, o') /\
  exists (w : @world PolyOps) m c oc t w1 r w2,
  reachable w /\ obj_of w c = Some oc /\ calc_geodesic_lagrangian_in o' m None w = (Ok t, w1) /\ get_components t (Some c) None w1 = (Ok r, w2) /\
  exists g gi w3 w4, get_components m (Some c) (Some [-1; -1]%Z) w2 = (Ok g, w3) /\ get_components m (Some c) (Some [1; 1]%Z) w3 = (Ok gi, w4) /\
  keq (aget r [0]) k0 /\ ~ keq (Geo_lowered 2 (o_syms oc) (mat2 g) (mat2 gi) 0) k0 /\
  ~ unit_multiple (aget r [1]) (Geo_lowered 2 (o_syms oc) (mat2 g) (mat2 gi) 1).
Proof. exact coordinate_parameter_witness. Qed.
Print Assumptions C175_parameter_is_coordinate_refuted.
