(** Vocabulary of the statements about replaced components.  Definitions only. *)
From Coq Require Import String.
From Verif Require Export SpecGeod.
Import List.

Section SpecCurve.
Context {A : AlgOps}.

Notation vel x := (x ++ "dot")%string.
Notation acc x := (x ++ "ddot")%string.

(** The coordinates other than the parameter of the curve. *)
Definition along_curve (p : string) (xs : list string) : list string := filter (fun x => negb (String.eqb x p)) xs.
(** The coordinates, velocities and accelerations. *)
Definition curve_symbols (p : string) (xs : list string) : list string :=
  let ms := along_curve p xs in ms ++ map (fun x => vel x) ms ++ map (fun x => acc x) ms.

(** The name of the n-th derivative of the function s of the parameter p. *)
Definition function_name (p s : string) (n : nat) : string :=
  (s ++ "(" ++ p ++ ")" ++ String.concat "" (repeat "'" n))%string.
Definition function_names (p : string) (xs : list string) : list string :=
  flat_map (fun n => map (fun s => function_name p s n) (curve_symbols p xs)) [0; 1; 2].

(** The coordinates, velocities, accelerations, functions and the parameter have different names. *)
Definition clear_names (p : string) (xs : list string) : Prop :=
  NoDup (p :: curve_symbols p xs ++ function_names p xs).

(** An expression without functions of the parameter, and one that has only coordinates. *)
Definition no_functions (p : string) (xs : list string) (e : K) : Prop :=
  forall f, In f (function_names p xs) -> free_of f e.
Definition static (p : string) (xs : list string) (e : K) : Prop :=
  no_functions p xs e /\ forall x, In x (along_curve p xs) -> free_of (vel x) e /\ free_of (acc x) e.

(** The derivative along the curve of an expression in the parameter, the coordinates and the
    velocities. *)
Definition rate (p : string) (xs : list string) (e : K) : K :=
  kadd (kdiff p e) (lsum (along_curve p xs) (fun x =>
    kadd (kmul (kdiff x e) (velocity x)) (kmul (kdiff (vel x) e) (acceleration x)))).

(** What is to be replaced: coordinates along the curve by static expressions, and other symbols
    by expressions that are constant along it.  No value contains a replaced symbol. *)
Definition good_replacement (p : string) (xs : list string) (r : list (string * K)) : Prop :=
  NoDup (map fst r) /\
  (forall k v, In (k, v) r -> static p xs v /\
     (In k (along_curve p xs) \/
      ~ In k (p :: curve_symbols p xs ++ function_names p xs) /\ free_of p v /\ forall x, In x (along_curve p xs) -> free_of x v)) /\
  (forall k v k', In (k, v) r -> In k' (map fst r) -> free_of k' v).

(** The curve with these replacements: the velocities and accelerations follow. *)
Definition curve_rules (p : string) (xs : list string) (r : list (string * K)) : list (string * K) :=
  flat_map (fun kv : string * K => let (k, v) := kv in
    if existsb (String.eqb k) (along_curve p xs)
    then [(k, v); (vel k, rate p xs v); (acc k, rate p xs (rate p xs v))]
    else [(k, v)]) r.
Definition replaced (p : string) (xs : list string) (r : list (string * K)) (e : K) : K :=
  subs_seq (curve_rules p xs r) e.

(** Coordinates, velocities and accelerations as functions of the parameter, and back. *)
Definition as_functions (p : string) (xs : list string) (e : K) : K :=
  subs_seq (map (fun s => (s, ksym (function_name p s 0))) (curve_symbols p xs)) e.
Definition from_functions (p : string) (xs : list string) (e : K) : K :=
  subs_seq (map (fun s => (function_name p s 0, ksym s)) (curve_symbols p xs)) e.

(** Velocity and acceleration of a coordinate after the replacement. *)
Definition value_of (r : list (string * K)) (x : string) : option K :=
  option_map snd (find (fun kv => String.eqb (fst kv) x) r).
Definition new_velocity (p : string) (xs : list string) (r : list (string * K)) (x : string) : K :=
  match value_of r x with Some v => rate p xs v | None => velocity x end.
Definition new_acceleration (p : string) (xs : list string) (r : list (string * K)) (x : string) : K :=
  match value_of r x with Some v => rate p xs (rate p xs v) | None => acceleration x end.

(** The parameter has velocity 1 and acceleration 0 by itself. *)
Definition at_parameter (p : string) (e : K) : K := ksub1 (vel p) k1 (ksub1 (acc p) k0 e).

(** The second array is the first one with a function applied to every entry. *)
Definition pointwise (f : K -> K) (a b : arr) : Prop :=
  awf b /\ shape b = shape a /\ forall idx, inb (shape a) idx = true -> keq (aget b idx) (f (aget a idx)).

(** The coordinates in which components are asked for. *)
Definition asked_coords (o : obj) (coords : option oid) (c : oid) : Prop :=
  coords = Some c \/ coords = None /\ o_coords o = Some c.

(** No value contains a symbol that is replaced. *)
Definition plain_replacement (r : list (string * K)) : Prop :=
  NoDup (map fst r) /\ forall k v k', In (k, v) r -> In k' (map fst r) -> free_of k' v.

End SpecCurve.
