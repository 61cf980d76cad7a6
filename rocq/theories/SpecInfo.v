(** Vocabulary of the statements about info().  Definitions only. *)
From Verif Require Import Alg Arr TensorM WorldM.

Section SpecInfo.
Context {A : AlgOps}.

(** The name of an object. *)
Definition name_in (w : world) (i : oid) : string :=
  match obj_of w i with Some o => o_name o | None => EmptyString end.

(** The registered objects whose attribute (default coordinates or metric) is t, in the order of
    the registry. *)
Definition users_in (w : world) (attr : obj -> option oid) (t : oid) : list oid :=
  filter (fun i => match obj_of w i with
                   | Some o => match attr o with Some j => j =? t | None => false end
                   | None => false
                   end) (insts w).

(** The value of a key in a dictionary. *)
Definition entry {V} (d : list (string * V)) (key : string) (v : V) : Prop := NoDup (map fst d) /\ In (key, v) d.
Definition no_entry {V} (d : list (string * V)) (key : string) : Prop := ~ In key (map fst d).

(** The order in which the lines are to be shown. *)
Definition shown_order : list string :=
  ["Name"; "Symbol"; "Type"; "Rank"; "Metric"; "Default Coordinates"; "Default Indices"; "Default Coordinates For";
   "Coordinate Transformations"; "Indices Symbols"; "Tensors Using This Metric"]%string.

End SpecInfo.
