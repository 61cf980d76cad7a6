(** Substitutions in components: the argument replace of get_components, for tensors and for
    Lagrangians and geodesic equations, and the functions of the curve parameter that coordinates
    become.  BaseTensor.py 492-497, Coordinates.py 103-205, Lagrangian.py 427-510, Geodesic.py
    869-957.  Definitions only.
    Simplifications: the keys of replace are symbols and the dictionary is not empty; the applied
    function x(p), and its n-th derivative by p, is written as one symbol [fvar p x n]; a
    substitution does not reach into the shape of an array; the arguments function and mode are
    left out (get_components_with in WorldM.v has the first). *)
From Coq Require Import String.
From Verif Require Export GeodM.
Import List.

(** e.subs({0: v}) and e.subs({1: v}), a substitution for a number. *)
Class NumSubs (A : AlgOps) := { ksubn : bool -> K -> K -> K }.

(** A substitution of a number by itself does nothing. *)
Class NumSubsLaws (A : AlgOps) (N : NumSubs A) : Prop := {
  ksubn_same : forall (b : bool) v e, keq v (if b then k1 else k0) -> keq (ksubn b v e) e
}.

(** A substitution of a symbol by itself does nothing. *)
Class SelfLaws (A : AlgOps) : Prop := {
  ksub1_self : forall s e, keq (ksub1 s (ksym s) e) e
}.

Section CurveM.
Context {A : AlgOps}.

(** *** The substitution of a dictionary: SymPy orders the keys (functions and derivatives first,
    then numbers, then symbols by name) and substitutes one after the other. *)
Inductive key := KNum (b : bool) | KSym (s : string) | KFun (s : string) (n : nat).

Definition key_eqb (k k' : key) : bool :=
  match k, k' with
  | KNum b, KNum b' => Bool.eqb b b'
  | KSym s, KSym s' => String.eqb s s'
  | KFun s n, KFun s' n' => String.eqb s s' && (n =? n')
  | _, _ => false
  end.
Definition key_leb (k k' : key) : bool :=
  match k, k' with
  | KFun s n, KFun s' n' => (n' <? n) || ((n =? n') && String.leb s s')
  | KFun _ _, _ => true
  | _, KFun _ _ => false
  | KNum b, KNum b' => implb b b'
  | KNum _, KSym _ => true
  | KSym _, KNum _ => false
  | KSym s, KSym s' => String.leb s s'
  end.
Fixpoint insert_key (x : key * K) (l : list (key * K)) : list (key * K) :=
  match l with
  | [] => [x]
  | y :: l' => if key_leb (fst x) (fst y) then x :: l else y :: insert_key x l'
  end.
Definition sort_keys (l : list (key * K)) : list (key * K) := fold_right insert_key [] l.

(** {**d, **d', ...} *)
Definition dict_of (l : list (key * K)) : list (key * K) :=
  fold_left (fun d x => dset key_eqb (fst x) (snd x) d) l [].

(** BaseTensor.py 496-497 *)
Definition symbol_keys (r : list (string * K)) : list (key * K) :=
  sort_keys (dict_of (map (fun x => (KSym (fst x), snd x)) r)).
Definition replace_symbols (r : list (string * K)) (e : K) : K :=
  fold_left (fun e x => match fst x with KSym s => ksub1 s (snd x) e | _ => e end) (symbol_keys r) e.

(** *** Functions of the curve parameter *)

Definition fvar (p s : string) (n : nat) : string :=
  (s ++ "(" ++ p ++ ")" ++ String.concat "" (repeat "'" n))%string.

(** The coordinates that become functions (Coordinates.py 114, 127 and 140). *)
Definition movers (p : string) (xs : list string) : list string := filter (fun x => negb (String.eqb x p)) xs.
(** The symbols that become functions, in the order of the dictionary. *)
Definition moving_symbols (p : string) (xs : list string) : list string :=
  nodup string_dec (map ddot (movers p xs) ++ map dot (movers p xs) ++ movers p xs).

(** Coordinates.py 103-162, without the entries that replace a symbol by itself. *)
Definition coord_functions (p : string) (xs : list string) : list rule :=
  map (fun s => (s, ksym (fvar p s 0))) (moving_symbols p xs).

(** Coordinates.py 164-205.  The functions made of the velocities and accelerations are not
    turned back. *)
Definition inverse_coord_functions (p : string) (xs : list string) : list rule :=
  map (fun x => (fvar p x 2, ksym (ddot x))) (movers p xs) ++
  map (fun x => (fvar p x 1, ksym (dot x))) (movers p xs) ++
  map (fun x => (fvar p x 0, ksym x)) (movers p xs).

Definition subst_rules (R : list rule) (e : K) : K := fold_left (fun y r => ksub1 (fst r) (snd r) y) R e.

(** Keys: Lagrangian.py 471-475 for the first entry of each pair. *)
Definition key_function (p : string) (xs : list string) (s : string) : key :=
  if existsb (String.eqb s) (moving_symbols p xs) then KFun s 0 else KSym s.
Definition key_diff (p : string) (k : key) : key :=
  match k with
  | KNum _ => KNum false
  | KSym s => KNum (String.eqb s p)
  | KFun s n => KFun s (S n)
  end.
Definition key_inverse (p : string) (xs : list string) (k : key) : key :=
  match k with
  | KFun x n => if existsb (String.eqb x) (movers p xs) then
                  match n with 0 => KSym x | 1 => KSym (dot x) | 2 => KSym (ddot x) | _ => k end
                else k
  | _ => k
  end.

(** Values: the second entry. *)
Definition value_diff (p : string) (xs : list string) (order : nat) (e : K) : K :=
  total p (flat_map (fun n => map (fun s => (fvar p s n, fvar p s (S n))) (moving_symbols p xs)) (seq 0 (S order))) e.
Definition value_function (p : string) (xs : list string) (e : K) : K := subst_rules (coord_functions p xs) e.
Definition value_inverse (p : string) (xs : list string) (e : K) : K := subst_rules (inverse_coord_functions p xs) e.

(** Lagrangian.py 468-490: the dictionary of the substitution in the components. *)
Definition replacements (p : string) (xs : list string) (r : list (string * K)) : list (key * K) :=
  let fk s := key_function p xs s in
  let fv v := value_function p xs v in
  let dv v := value_diff p xs 0 (fv v) in
  let back k v := (key_inverse p xs k, value_inverse p xs v) in
  dict_of
    (map (fun x => back (fk (fst x)) (fv (snd x))) r ++
     map (fun x => back (key_diff p (fk (fst x))) (dv (snd x))) r ++
     map (fun x => back (key_diff p (key_diff p (fk (fst x)))) (value_diff p xs 1 (dv (snd x)))) r).

Context {N : NumSubs A}.

Definition subst_key (p : string) (e : K) (x : key * K) : K :=
  match fst x with
  | KNum b => ksubn b (snd x) e
  | KSym s => ksub1 s (snd x) e
  | KFun s n => ksub1 (fvar p s n) (snd x) e
  end.
Definition replace_curve (p : string) (xs : list string) (r : list (string * K)) (e : K) : K :=
  fold_left (subst_key p) (sort_keys (replacements p xs r)) e.

(** BaseTensor.py 458-514 with the argument replace. *)
Definition get_components_replaced (r : list (string * K)) (t : oid) (coords : option oid)
  (indices : option (list Z)) : M arr :=
  let! a := get_components t coords indices in
  mret (amap (replace_symbols r) a).

(** Lagrangian.py 427-510; with [time], Geodesic.py 869-957: the parameter is the first
    coordinate, whose velocity is 1 and acceleration 0.  [param] is options.CURVE_PARAMETER. *)
Definition get_curve_components (time : bool) (param : string) (r : option (list (string * K))) (t : oid)
  (coords : option oid) (indices : option (list Z)) : M arr :=
  let! o := getobj t in
  let! c := match coords with Some c => mret c | None => mopt EAttributeError (o_coords o) end in
  let! a := get_components t coords indices in
  let! oc := getobj c in
  let xs := o_syms oc in
  let! p := if time then mopt EIndexError (hd_error xs) else mret param in
  let a := match r with
           | None => a
           | Some r =>
             let a := amap (replace_curve p xs r) a in
             if time then amap (fun e => ksub1 (dot p) k1 (ksub1 (ddot p) k0 e)) a else a
           end in
  mret (amap (value_function p xs) a).

End CurveM.
