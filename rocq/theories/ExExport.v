(** A concrete reader and writer of polynomial expressions, and small sessions for the
    examples and refutations of Props_Export.  Definitions only. *)
From Coq Require Import QArith Ascii DecimalString.
From Verif Require Import Base Alg Arr Spec TensorM Inst Ex WorldM SpecWorld ExWorld LexM ParseM InterpM SpecParse
  ExportM SpecExport.
Import List.
Local Open Scope nat_scope.

(** Expressions of the reader: polynomials, and equations with a symbol on the left. *)
Inductive xexp : Set := XP (p : pexp) | XEq (s : string) (p : pexp).

Definition q_same (x y : Q) : bool := (Qnum x =? Qnum y)%Z && (Qden x =? Qden y)%positive.
Fixpoint p_same (x y : pexp) : bool :=
  match x, y with
  | PC p, PC q => q_same p q
  | PV s, PV t => String.eqb s t
  | PAdd a b, PAdd c d | PMul a b, PMul c d | PSub a b, PSub c d => p_same a c && p_same b d
  | POpp a, POpp b => p_same a b
  | _, _ => false
  end.
Definition x_same (x y : xexp) : bool :=
  match x, y with
  | XP p, XP q => p_same p q
  | XEq s p, XEq t q => String.eqb s t && p_same p q
  | _, _ => false
  end.

Definition p_two (f : pexp -> pexp -> pexp) (x y : xexp) : res xexp :=
  match x, y with XP p, XP q => Ok (XP (f p q)) | _, _ => Err ESymPy end.
Definition p_neg (x : xexp) : res xexp :=
  match x with XP (PC q) => Ok (XP (PC (- q))) | XP p => Ok (XP (POpp p)) | XEq _ _ => Err ETypeError end.

Definition digit_value (c : ascii) : Z := (Z.of_nat (nat_of_ascii c) - 48)%Z.
Definition p_word (t : text) : pexp :=
  if forallb (fun c => (48 <=? nat_of_ascii c) && (nat_of_ascii c <=? 57)) t
  then PC (inject_Z (fold_left (fun n c => 10 * n + digit_value c)%Z t 0%Z))
  else PV (string_of_list_ascii t).

(** An equation must have a symbol on its left; an equation between equal sides is true and
    no equation. *)
Definition p_equation (x y : xexp) : res xexp :=
  match x, y with
  | XP (PV s), XP q => if p_same (PV s) q then Err ENotImplemented else Ok (XEq s q)
  | _, _ => Err ENotImplemented
  end.

#[export] Instance PolyPy : PyOps := {
  E := xexp;
  o_sympify t := Ok (XP (p_word t));
  o_add := p_two (fun p q => match q with POpp r => PSub p r | _ => PAdd p q end);
  o_mul := p_two PMul;
  o_pow _ _ := Err ENotImplemented;
  o_neg := p_neg;
  o_eq := p_equation;
  o_minus_one := XP (PC (-1));
  o_symbol t := XP (PV (string_of_list_ascii t));
  o_apply _ _ := Err ENotImplemented;
  o_function _ _ := Err ENotImplemented;
  o_diff _ _ := Err ENotImplemented;
  o_index _ := Err ENotImplemented;
  o_literal _ := Err EValueError;
  o_same := x_same
}.

(** The writing of a polynomial with whole coefficients. *)
Definition numeral (z : Z) : text := chars (NilZero.string_of_uint (N.to_uint (Z.abs_N z))).
Fixpoint code_exp (p : pexp) : exp :=
  match p with
  | PC q => if (Qnum q <? 0)%Z then ENeg (EWord (numeral (Qnum q))) else EWord (numeral (Qnum q))
  | PV s => EWord (chars s)
  | PAdd a b => EAdd (code_exp a) (code_exp b)
  | PMul a b => EMul (code_exp a) (code_exp b)
  | PSub a b => ESub (code_exp a) (code_exp b)
  | POpp a => ENeg (code_exp a)
  end.

#[export] Instance PolyCode : @CodeOps PolyOps PolyPy := {
  c_code := fun p : pexp => show true 1 (code_exp p);
  to_scalar := fun x : xexp => match x with XP p => Some (p : @K PolyOps) | XEq _ _ => None end;
  to_int := fun x : xexp => match x with XP (PC q) => if (Qden q =? 1)%positive then Some (Qnum q) else None | _ => None end;
  to_symbol := fun x : xexp => match x with XP (PV s) => Some s | _ => None end;
  to_rule := fun x : xexp => match x with XEq s p => REq (s, p : @K PolyOps) | XP _ => RBad end
}.

(** The session ex_w, with the way back from u, v to x, y, after the components of the
    vector were requested in all four representations. *)
Definition ex_full_w : @world PolyOps :=
  run_all [OpAdd 1 (VObj 0) (Some (map REq ex_back)); OpGet 3 (Some 1) (Some [1]%Z)] ex_w.

(** The Jacobians from x, y to u, v were needed for the vector, which was then deleted, and
    the transformation was removed. *)
Definition ex_dangling_w : @world PolyOps :=
  run_all [OpGet 3 (Some 1) (Some [1]%Z); OpAdd 0 (VObj 1) None; OpDelete 3 true] ex_w.

(** One coordinate. *)
Definition ex_line_w : @world PolyOps :=
  run_all [OpCoordinates (ex_str "T") (VSyms [1] ["t"%string]) (VTuple [1]%Z) (ex_str "t") []] empty_world.
(** Coordinates with the name "Options", and with an empty symbol. *)
Definition ex_options_w : @world PolyOps :=
  run_all [OpCoordinates (ex_str "Options") (VSyms [2] ex_xs) (VTuple [1]%Z) (ex_str "t") []] empty_world.
Definition ex_blank_w : @world PolyOps :=
  run_all [OpCoordinates (ex_str "XY") (VSyms [2] ex_xs) (VTuple [1]%Z) (ex_str "") []] empty_world.
(** A metric with mixed default indices; a metric with the name of its coordinates; two
    vectors with one name; coordinates with an unlucky name. *)
Definition ex_mixed_w : @world PolyOps := run_all [OpIndices 2 [1; -1]%Z] ex_w.
Definition ex_namesake_w : @world PolyOps := run_all [OpName 2 (ex_str "XY")] ex_w.
Definition ex_twins_w : @world PolyOps := run_all (ex_more "V" 1) ex_w.
Definition ex_unlucky_w : @world PolyOps := run_all [OpName 1 (ex_str "CoordTransformations")] ex_w.
