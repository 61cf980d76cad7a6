(** Components as functions of a point with real coordinates: the value of a component at a point,
    substitution as moving the point.  It says what the rules of Defaults.py mean for real numbers.
    Definitions only.  Derivatives, inverses of matrices and tests for zero are not needed here
    and are left trivial. *)
From Coq Require Import Reals.
From Verif Require Import Alg DefaultsM.
Local Open Scope R_scope.

Definition point := string -> R.
(** The point with another value of one coordinate *)
Definition at_value (p : point) (s : string) (x : R) : point := fun t => if String.eqb s t then x else p t.

Definition RealOps : AlgOps := {|
  K := point -> R; keq := fun e f => forall p, e p = f p; k0 := fun _ => 0; k1 := fun _ => 1;
  kadd := fun e f p => e p + f p; kmul := fun e f p => e p * f p; ksub := fun e f p => e p - f p;
  kopp := fun e p => - e p; kinvn := fun n _ => / INR n; simp := fun e => e; kisz := fun _ => false;
  ksym := fun s p => p s; kdiff := fun _ _ _ => 0;
  ksub1 := fun s q e p => e (at_value p s (q p));
  minv := fun _ _ => None; mdet0 := fun _ _ => true; kclean := fun e => e
|}.

(** sin, cos, sqrt, acos, atan and 1/x are the real functions; a(t) does not occur in the rules. *)
Definition real_functions : @functions RealOps := @mkFunctions RealOps
  (fun e p => sin (e p)) (fun e p => cos (e p)) (fun e p => sqrt (e p)) (fun e p => acos (e p)) (fun e p => atan (e p))
  (fun e p => / e p) (fun _ => 1).
