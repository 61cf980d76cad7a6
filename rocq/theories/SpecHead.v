(** Specification vocabulary for formulas that contain one covariant derivative.  Definitions
    only. *)
From Verif Require Export SpecCov SpecForm.

Section Headed.
Context {A : AlgOps}.

(** CovariantD("a") @ T("..."), where the letters are those of the options. *)
Definition derivative_of (letters : list string) (a : string) (t : oid) (syms : list string) : M calc :=
  let! d := CovariantD [a] in let! x := calc_call t syms in matmul_with (Ok letters) d x.

(** Formulas with something which is evaluated first: its operators, from the innermost to the
    outermost one, with the formulas on their right, or with a tensor and its symbols on their
    left. *)
Inductive headed :=
| HHere
| HAdd (x : headed) (y : formula)
| HSub (x : headed) (y : formula)
| HNeg (x : headed)
| HScale (k : K) (x : headed)
| HOver (k : K) (x : headed)
| HMul (x : headed) (y : formula)
| HGrad (a : string) (x : headed)
| HPlus (t : oid) (s : list string) (x : headed)
| HMinus (t : oid) (s : list string) (x : headed)
| HTimes (t : oid) (s : list string) (x : headed).

(** Evaluation from left to right, with the program [q] for what is evaluated first. *)
Fixpoint eval_headed (q : M calc) (p : headed) : M calc :=
  match p with
  | HHere => q
  | HAdd x y => let! a := eval_headed q x in let! b := eval y in calc_add a (OCalc b)
  | HSub x y => let! a := eval_headed q x in let! b := eval y in calc_sub a (OCalc b)
  | HNeg x => let! a := eval_headed q x in calc_neg a
  | HScale k x => let! a := eval_headed q x in calc_mul a (OScalar k)
  | HOver k x => let! a := eval_headed q x in calc_div a k
  | HMul x y => let! a := eval_headed q x in let! b := eval y in matmul0 a b
  | HGrad d x => let! p := PartialD [d] in let! a := eval_headed q x in matmul0 p a
  | HPlus t s x => let! a := calc_call t s in let! b := eval_headed q x in calc_add a (OCalc b)
  | HMinus t s x => let! a := calc_call t s in let! b := eval_headed q x in calc_sub a (OCalc b)
  | HTimes t s x => let! a := calc_call t s in let! b := eval_headed q x in matmul0 a b
  end.

(** The formula with the tensor number [d] with the symbols [s] instead. *)
Fixpoint starting (d : oid) (s : list string) (p : headed) : formula :=
  match p with
  | HHere => FTensor d s
  | HAdd x y => FAdd (starting d s x) y
  | HSub x y => FSub (starting d s x) y
  | HNeg x => FNeg (starting d s x)
  | HScale k x => FScale k (starting d s x)
  | HOver k x => FOver k (starting d s x)
  | HMul x y => FMul (starting d s x) y
  | HGrad a x => FGrad a (starting d s x)
  | HPlus t r x => FAdd (FTensor t r) (starting d s x)
  | HMinus t r x => FSub (FTensor t r) (starting d s x)
  | HTimes t r x => FMul (FTensor t r) (starting d s x)
  end.

(** The other tensors. *)
Fixpoint others (p : headed) : list oid :=
  match p with
  | HHere => []
  | HAdd x y | HSub x y | HMul x y => others x ++ leaves y
  | HNeg x | HScale _ x | HOver _ x | HGrad _ x => others x
  | HPlus t _ x | HMinus t _ x | HTimes t _ x => t :: others x
  end.

(** The tensors on the left have no repeated symbol. *)
Fixpoint plain_left (p : headed) : Prop :=
  match p with
  | HHere => True
  | HAdd x _ | HSub x _ | HMul x _ | HNeg x | HScale _ x | HOver _ x | HGrad _ x => plain_left x
  | HPlus _ s x | HMinus _ s x | HTimes _ s x => NoDup s /\ plain_left x
  end.

(** Whatever is not called "TEMP" stays, except that components may have been added to the
    tensors [l]; whatever is registered afterwards was registered before or has one of the
    [names]. *)
Definition only_adds_and_grows (l : list oid) (names : list string) (w w' : world) : Prop :=
  (forall j o, obj_of w j = Some o -> o_name o <> "TEMP"%string ->
     cls_of w' j = cls_of w j /\ (In j (insts w) -> In j (insts w')) /\
     exists o', obj_of w' j = Some o' /\ (~ In j l -> o' = o) /\ same_attrs o o' /\
       forall c d i a, dget Nat.eqb c (o_comps o) = Some d -> dget cfg_eqb i d = Some a ->
         exists d', dget Nat.eqb c (o_comps o') = Some d' /\ dget cfg_eqb i d' = Some a) /\
  (forall j, In j (insts w') -> In j (insts w) \/ exists s, In s names /\ named w' s j).

End Headed.
