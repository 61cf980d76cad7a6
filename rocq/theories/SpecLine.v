(** Specification vocabulary for line and volume elements.  Definitions only. *)
From Verif Require Import Alg Arr Spec TensorM WorldM.
Local Open Scope nat_scope.

Section SpecLine.
Context {A : AlgOps}.

(** The quadratic form of g on the differentials d. *)
Definition quadratic (n : nat) (g : nat -> nat -> K) (d : nat -> K) : K :=
  nsum n (fun i => nsum n (fun j => kmul (g i j) (kmul (d i) (d j)))).

(** The differential of a coordinate. *)
Definition differential (x : string) : K := ksym ("d" ++ x)%string.

(** +1, -1 or 0 as a is below, above or equal to b. *)
Definition order_sign (a b : nat) : K :=
  match Nat.compare a b with Lt => k1 | Gt => kopp k1 | Eq => k0 end.

(** The sign of a tuple as an arrangement; 0 if an entry occurs twice. *)
Fixpoint arrangement_sign (l : list nat) : K :=
  match l with
  | [] => k1
  | x :: l' => kmul (kprod (map (order_sign x) l')) (arrangement_sign l')
  end.

(** The determinant: the sum over all choices p of one column per row of the sign of p times the
    product of the entries (i, p_i). *)
Definition determinant (n : nat) (f : nat -> nat -> K) : K :=
  lsum (tuples n n) (fun p => kmul (arrangement_sign p)
    (kprod (map (fun ij => f (fst ij) (snd ij)) (combine (seq 0 n) p)))).

Definition mat_mul (n : nat) (f g : nat -> nat -> K) : nat -> nat -> K :=
  fun i j => nsum n (fun k => kmul (f i k) (g k j)).

(** The coordinates a display method of the metric m uses: those asked for, or the default. *)
Definition shown_in (w : world) (m : oid) (oc : option oid) (c : oid) : Prop :=
  oc = Some c \/ oc = None /\ exists o, obj_of w m = Some o /\ o_coords o = Some c.

End SpecLine.
