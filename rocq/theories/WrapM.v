(** The functions and methods that make objects, with their default arguments.  Definitions
    only. *)
From Verif Require Export WorldM.

Section WrapM.
Context {A : AlgOps}.

(** An argument that may be left out, with its default value. *)
Definition given (x : option pyval) (d : pyval) : pyval := match x with Some v => v | None => d end.

(** Coordinates.py 526-559; the defaults of the class (45-52) are the same. *)
Definition py_new_coordinates (name components : pyval) (indices symbol : option pyval)
  (transformations : option (list (oid * list rarg))) : M oid :=
  new_coordinates name components (given indices (VTuple [1]%Z)) (given symbol (VSymbol "x"))
    (match transformations with Some l => l | None => [] end).

(** Metric.py 460-494; the defaults of the class (53-60) are the same. *)
Definition py_new_metric (name components coords : pyval) (indices symbol : option pyval) : M oid :=
  new_metric name components coords (given indices (VTuple [-1; -1]%Z)) (given symbol (VSymbol "g")).

(** Tensor.py 208-246; the defaults of the class (48-56) are the same. *)
Definition py_new_tensor (name components metric coords : pyval) (indices symbol : option pyval)
  : M oid :=
  new_tensor name components metric coords (given indices VNone) (given symbol (VSymbol "T")).

(** Coordinates.py 487-522: self.new_metric(...) *)
Definition coords_new_metric (self : oid) (name components : pyval) (indices symbol : option pyval)
  : M oid :=
  new_metric name components (VObj self) (given indices (VTuple [-1; -1]%Z)) (given symbol (VSymbol "g")).

(** Metric.py 313-350: self.new_tensor(...); the coordinates of self are read if coords is None. *)
Definition metric_new_tensor (self : oid) (name components : pyval)
  (coords indices symbol : option pyval) : M oid :=
  let! c := match given coords VNone with
            | VNone => let! o := getobj self in
                       let! c := mopt EAttributeError (o_coords o) in mret (VObj c)
            | v => mret v
            end in
  new_tensor name components (VObj self) c (given indices VNone) (given symbol (VSymbol "T")).

End WrapM.
