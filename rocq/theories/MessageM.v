(** Model of the messages of /repo/src/PyOGRe/Exceptions.py and of what ValidateIndices and
    ValidateOGReObject say when they refuse their arguments.  Definitions only.
    Simplifications: the messages of built-in exceptions (TypeError) are left out. *)
From Verif Require Import Base LexM WorldM.
From Coq Require Import Ascii DecimalString.
Import List.

(** str() of an integer and of a length *)
Definition int_text (z : Z) : text := chars (NilZero.string_of_int (Z.to_int z)).
Definition nat_text (n : nat) : text := chars (NilZero.string_of_uint (Nat.to_uint n)).

(** repr() of a tuple of integers *)
Fixpoint commas (l : list text) : text :=
  match l with
  | [] => []
  | [x] => x
  | x :: l' => x ++ chars ", " ++ commas l'
  end.
Definition tuple_text (l : list text) : text :=
  match l with
  | [x] => chars "(" ++ x ++ chars ",)"
  | _ => chars "(" ++ commas l ++ chars ")"
  end.

Definition newline : text := [ascii_of_nat 10].

(** Exceptions.py 13-23: str(IndicesDimensionError(indices, error, dim)) *)
Definition dimension_message (indices : list Z) (error : string) (dim : nat) : text :=
  chars "The supplied indices (" ++ tuple_text (map int_text indices) ++ chars ") are invalid." ++
  (if String.eqb error "tensor" then
     newline ++ chars "The number of indices (" ++ nat_text (length indices)
       ++ chars ") must match the rank of the Tensor (" ++ nat_text dim ++ chars ")."
   else if String.eqb error "metric" then
     newline ++ chars "The number of indices (" ++ nat_text (length indices)
       ++ chars ") for a Metric must be " ++ nat_text dim ++ chars "."
   else []).
(** Exceptions.py 33-43: str(IndicesValueError(indices, error)) *)
Definition value_message (indices : list Z) (error : string) : text :=
  chars "The supplied indices " ++ tuple_text (map int_text indices) ++ chars " are invalid." ++
  (if String.eqb error "tensor" then newline ++ chars "All indices must either be +1 or -1."
   else if String.eqb error "coordinates" then
     newline ++ chars "Coordinates may only have one indice, which must have value +1."
   else []).
(** Exceptions.py 52-57 and 66-71 *)
Definition shape_message (sh : list nat) : text :=
  chars "Tensor components must have uniform shape, got " ++ tuple_text (map nat_text sh)
  ++ chars ", which is not uniform.".
Definition coordinates_message (sh cs : list nat) : text :=
  chars "Tensor components must have the same dimensions " ++ tuple_text (map nat_text sh)
  ++ chars " as the coordinates " ++ tuple_text (map nat_text cs) ++ chars ".".

(** OGReObject.py 369-415: the error and its message, if the tuple is refused; [n]: the rank of the
    components, if given; [src]: the length of source_indices, if given. *)
Definition refused_indices (l : list Z) (n src : option nat) : option (exn * text) :=
  if negb (forallb (fun z => (z =? -1) || (z =? 1))%Z l)
  then Some (EIndicesValue, value_message l "tensor")                        (* 386-390 *)
  else if match n with Some r => negb (r =? length l) | None => false end
  then match n with
       | Some r => Some (EIndicesDimension, dimension_message l "tensor" r)    (* 394-399 *)
       | None => None
       end
  else match src with
       | Some r => if r =? length l then None
                   else Some (EIndicesDimension, dimension_message l "symbol" r) (* 408-413 *)
       | None => None
       end.
(** OGReObject.py 445-450 and BaseTensor.py 571-579, for components of the shape [sh] and coordinates
    of the shape (n,): the error and its message, if the shape is refused. *)
Definition refused_shape (sh : list nat) (n : nat) : option (exn * text) :=
  if negb (forallb (fun d => d =? hd 0 sh) sh) then Some (ETensorDimension, shape_message sh)
  else if forallb (fun d => d =? n) sh then None
  else Some (ETensorCoordinates, coordinates_message sh [n]).
