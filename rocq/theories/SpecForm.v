(** Specification vocabulary for whole formulas.  Definitions only. *)
From Verif Require Export SpecChange SpecScalar.

Section Labels.
Context {X : Type} (eqb : X -> X -> bool).

(** [f] with the value [k] at [y]. *)
Definition upd (f : X -> nat) (y : X) (k : nat) : X -> nat := fun x => if eqb x y then k else f x.

End Labels.

Section Formula.
Context {A : AlgOps}.

(** Formulas as a user writes them: T("a b c") with symbols that may be repeated, x + y, x - y,
    - x, k * x, x / k' (with k = 1 / k'), x @ y, PartialD("a") @ x. *)
Inductive formula :=
| FTensor (t : oid) (s : list string)
| FAdd (x y : formula)
| FSub (x y : formula)
| FNeg (x : formula)
| FScale (k : K) (x : formula)
| FOver (k : K) (x : formula)
| FMul (x y : formula)
| FGrad (a : string) (x : formula).

(** Evaluation of the formula: every operator is the method of the CalcObject, operands are
    evaluated from left to right. *)
Fixpoint eval (p : formula) : M calc :=
  match p with
  | FTensor t s => calc_call t s
  | FAdd x y => let! a := eval x in let! b := eval y in calc_add a (OCalc b)
  | FSub x y => let! a := eval x in let! b := eval y in calc_sub a (OCalc b)
  | FNeg x => let! a := eval x in calc_neg a
  | FScale k x => let! a := eval x in calc_mul a (OScalar k)
  | FOver k x => let! a := eval x in calc_div a k
  | FMul x y => let! a := eval x in let! b := eval y in matmul0 a b
  | FGrad d x => let! p := PartialD [d] in let! a := eval x in matmul0 p a
  end.

(** The tensors of the formula. *)
Fixpoint leaves (p : formula) : list oid :=
  match p with
  | FTensor t _ => [t]
  | FAdd x y | FSub x y | FMul x y => leaves x ++ leaves y
  | FNeg x | FScale _ x | FOver _ x | FGrad _ x => leaves x
  end.

(** The scalars of the formula. *)
Fixpoint factors (p : formula) : list K :=
  match p with
  | FTensor _ _ => []
  | FAdd x y | FSub x y | FMul x y => factors x ++ factors y
  | FNeg x | FGrad _ x => factors x
  | FScale k x | FOver k x => k :: factors x
  end.

(** There is no derivative in the formula. *)
Fixpoint algebraic (p : formula) : Prop :=
  match p with
  | FTensor _ _ => True
  | FAdd x y | FSub x y | FMul x y => algebraic x /\ algebraic y
  | FNeg x | FScale _ x | FOver _ x => algebraic x
  | FGrad _ _ => False
  end.

(** The symbols that occur twice. *)
Definition repeated (s : list string) : list string :=
  filter (fun x => Nat.eqb (count String.eqb x s) 2) (nodup string_dec s).

(** The free symbols of the formula. *)
Fixpoint free_syms (p : formula) : list string :=
  match p with
  | FTensor _ s => without s (repeated s)
  | FAdd x _ | FSub x _ | FNeg x | FScale _ x | FOver _ x => free_syms x
  | FMul x y => without (free_syms x) (free_syms y) ++ without (free_syms y) (free_syms x)
  | FGrad a x => a :: free_syms x
  end.

(** Derivatives are taken of scalars only. *)
Fixpoint tensorial (p : formula) : Prop :=
  match p with
  | FTensor _ _ => True
  | FAdd x y | FSub x y | FMul x y => tensorial x /\ tensorial y
  | FNeg x | FScale _ x | FOver _ x => tensorial x
  | FGrad _ x => tensorial x /\ free_syms x = []
  end.

Section Values.
(** [conf t] is the default configuration of the tensor [t]. *)
Variable conf : oid -> list Z.

(** The configuration of the result, one entry for every free symbol. *)
Fixpoint free_cfg (p : formula) : list Z :=
  match p with
  | FTensor t s => indices_without s (conf t) (repeated s)
  | FAdd x _ | FSub x _ | FNeg x | FScale _ x | FOver _ x => free_cfg x
  | FMul x y => indices_without (free_syms x) (free_cfg x) (free_syms y) ++
                indices_without (free_syms y) (free_cfg y) (free_syms x)
  | FGrad _ x => (-1)%Z :: free_cfg x
  end.

(** Every tensor has one symbol for every index and no symbol more than twice, sums have the
    same free symbols on both sides, and a derivative has a new symbol. *)
Fixpoint well_formed (p : formula) : Prop :=
  match p with
  | FTensor t s => length s = length (conf t) /\ forall x, count String.eqb x s <= 2
  | FAdd x y | FSub x y => well_formed x /\ well_formed y /\ Permutation (free_syms x) (free_syms y)
  | FMul x y => well_formed x /\ well_formed y
  | FNeg x | FScale _ x | FOver _ x => well_formed x
  | FGrad a x => well_formed x /\ ~ In a (free_syms x)
  end.

(** The dimension, the coordinates, the metric with its inverse, and the covariant components
    of every tensor. *)
Variables (n : nat) (xs : list string) (g gi : nat -> nat -> K) (T : oid -> list nat -> K).

(** Contraction with the inverse metric over the symbols [D], of which one occurrence takes its
    values from [f1] and the other one from [f2]. *)
Fixpoint contracted (D : list string) (F : (string -> nat) -> (string -> nat) -> K)
  (f1 f2 : string -> nat) : K :=
  match D with
  | [] => F f1 f2
  | y :: D' => nsum n (fun k => nsum n (fun l =>
      kmul (gi k l) (contracted D' F (upd String.eqb f1 y k) (upd String.eqb f2 y l))))
  end.

(** The indices [s] of [F] taken to other positions. *)
Definition lifted (s : list string) (Ms : list (nat -> nat -> K)) (F : (string -> nat) -> K)
  (f : string -> nat) : K :=
  act n Ms (fun ks => F (assign s ks f)) (map f s).

(** The covariant components of the formula.  [f] gives the values of the free symbols.  The
    derivative is the derivative of the components in the configuration of its operand. *)
Fixpoint value (p : formula) (f : string -> nat) : K :=
  match p with
  | FTensor t s =>
    contracted (repeated s)
      (fun f1 f2 => T t (map (fun q => let x := nth q s ""%string in
                                (if existsb (String.eqb x) (firstn q s) then f2 else f1) x)
                             (seq 0 (length s)))) f f
  | FAdd x y => kadd (value x f) (value y f)
  | FSub x y => ksub (value x f) (value y f)
  | FNeg x => kopp (value x f)
  | FScale k x | FOver k x => kmul k (value x f)
  | FMul x y =>
    contracted (common (free_syms x) (free_syms y))
      (fun f1 f2 => kmul (value x f1) (value y f2)) f f
  | FGrad a x =>
    let s := free_syms x in let i := free_cfg x in
    lifted s (map (fun z => conv g gi z (-1)%Z) i)
      (fun f => kdiff (cx xs (f a)) (lifted s (map (conv g gi (-1)%Z) i) (value x) f)) f
  end.

(** The covariant components and the components in the configuration [i], by their indices in
    the order of the symbols [s]. *)
Definition covariant_components (p : formula) (s : list string) (idx : list nat) : K :=
  value p (assign s idx (fun _ => 0)).
Definition components_in (p : formula) (s : list string) (i : list Z) : list nat -> K :=
  act n (map (conv g gi (-1)%Z) i) (covariant_components p s).

End Values.

(** The covariant components of a formula in the coordinates [c] of a geometry.  [T t c] are the
    covariant components of the tensor [t] there. *)
Definition geo_formula (G : geometry) (conf : oid -> list Z) (T : oid -> oid -> list nat -> K)
  (p : formula) (s : list string) (c : oid) : list nat -> K :=
  covariant_components conf (g_n G) (g_syms G c) (g_G G c) (g_Gi G c) (fun t => T t c) p s.

(** The factors of the formula are constants: no rule of the geometry changes them. *)
Definition constant_factors (G : geometry) (p : formula) : Prop :=
  forall c c' R k, g_sys G c -> dget Nat.eqb c' (g_rules G c) = Some R -> In k (factors p) ->
    keq (subs_seq R k) k.

(** Neither the tensors nor the factors contain the coordinates of another system. *)
Definition own_coordinates (G : geometry) (conf : oid -> list Z) (T : oid -> oid -> list nat -> K)
  (p : formula) : Prop :=
  forall c c' R, g_sys G c -> dget Nat.eqb c' (g_rules G c) = Some R ->
    (forall t, In t (leaves p) -> without_symbols (g_n G) (g_syms G c') (length (conf t)) (T t c)) /\
    forall k y, In k (factors p) -> In y (g_syms G c') -> keq (kdiff y k) k0.

(** The tensor [t] has its default coordinates [c], the metric [m], the configuration [i] and the
    components [h]; everything stored for the coordinates [c] is right; it is no other metric,
    and if it is a scalar it was made in these coordinates. *)
Definition operand (w : world) (n : nat) (m c : oid) (g gi : nat -> nat -> K) (t : oid)
  (i : list Z) (h : list nat -> K) : Prop :=
  tensor_value w n m c t i h /\ stored_right w n c t g gi i h /\ valid_cfg i /\
  (cls_of w t = Some CMetric -> t = m) /\
  forall o, obj_of w t = Some o -> ~ made_elsewhere o c.

(** Every object stays, except that components may have been added to the tensors [l];
    whatever is registered in addition is called "TEMP". *)
Definition only_grows (l : list oid) (w w' : world) : Prop :=
  (forall j o, obj_of w j = Some o ->
     cls_of w' j = cls_of w j /\ (In j (insts w) -> In j (insts w')) /\
     exists o', obj_of w' j = Some o' /\ (~ In j l -> o' = o) /\ same_attrs o o' /\
       forall c d i a, dget Nat.eqb c (o_comps o) = Some d -> dget cfg_eqb i d = Some a ->
         exists d', dget Nat.eqb c (o_comps o') = Some d' /\ dget cfg_eqb i d' = Some a) /\
  (forall j, In j (insts w') -> In j (insts w) \/ named w' "TEMP" j).

(** The same without the temporary tensors: they are deleted, and the others may have been
    given further components; one object is added. *)
Definition only_adds_one (l : list oid) (q : oid) (w w' : world) : Prop :=
  (forall j o, obj_of w j = Some o -> o_name o <> "TEMP"%string ->
     cls_of w' j = cls_of w j /\ (In j (insts w) -> In j (insts w')) /\
     exists o', obj_of w' j = Some o' /\ (~ In j l -> o' = o) /\ same_attrs o o' /\
       forall c d i a, dget Nat.eqb c (o_comps o) = Some d -> dget cfg_eqb i d = Some a ->
         exists d', dget Nat.eqb c (o_comps o') = Some d' /\ dget cfg_eqb i d' = Some a) /\
  (forall j, In j (insts w') -> In j (insts w) \/ j = q \/ named w' "TEMP" j).

End Formula.
