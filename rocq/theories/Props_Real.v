(** C207: the two transformations of Defaults.py at real points.  These theorems use the real numbers
    of the standard library and its axioms. *)
From Coq Require Import Reals Lra.
From Verif Require Import Alg Spec WorldM DefaultsM InstReal SpecReal Real_P.
Local Open Scope R_scope.

(** C207.  The property is false: the way from Cartesian to spherical coordinates and back changes
    components where x is negative. *)
Theorem C207_there_and_back_refuted : exists (p : point) e,
  only_of cartesian_symbols e /\ p "x"%string <> 0 /\
  there_and_back (@stored_rules RealOps (to_spherical real_functions)) (@stored_rules RealOps (to_cartesian real_functions)) e p <> e p.
Proof. exact there_and_back_not_same. Qed.

(** Where x is positive nothing changes; where it is negative the component is that of the point
    opposite to the z axis. *)
Theorem C207_cartesian_there_and_back (p : point) e : only_of cartesian_symbols e ->
  let back := there_and_back (@stored_rules RealOps (to_spherical real_functions)) (@stored_rules RealOps (to_cartesian real_functions)) e in
  (0 < p "x"%string -> back p = e p) /\
  (p "x"%string < 0 -> back p = e (at_value (at_value p "x" (- p "x"%string)) "y" (- p "y"%string))).
Proof. exact (fun He => conj (cartesian_same p e He) (cartesian_reflected p e He)). Qed.

(** The other way round, phi is kept between -pi/2 and pi/2 and loses pi between pi/2 and 3/2 pi. *)
Theorem C207_spherical_there_and_back (p : point) e : only_of spherical_symbols e ->
  let back := there_and_back (@stored_rules RealOps (to_cartesian real_functions)) (@stored_rules RealOps (to_spherical real_functions)) e in
  0 < p "r"%string -> 0 < p "theta"%string < PI ->
  (- (PI / 2) < p "phi"%string < PI / 2 -> back p = e p) /\
  (PI / 2 < p "phi"%string < 3 * (PI / 2) -> back p = e (at_value p "phi" (p "phi"%string - PI))).
Proof. exact (fun He Hr Ht => conj (spherical_same p e He Hr Ht) (spherical_moved p e He Hr Ht)). Qed.
Print Assumptions C207_there_and_back_refuted.
Print Assumptions C207_cartesian_there_and_back.
Print Assumptions C207_spherical_there_and_back.

(** The component x + t y at points on both sides. *)
Example ex_C207_points : let e : @K RealOps := fun p => p "x"%string + p "t"%string * p "y"%string in
  only_of cartesian_symbols e /\
  exists p q : point, 0 < p "x"%string /\ q "x"%string < 0 /\ e (at_value (at_value q "x" (- q "x"%string)) "y" (- q "y"%string)) <> e q.
Proof.
  split; [intros p q H; rewrite !H by (cbn; tauto); reflexivity|].
  exists (fun _ => 1), (fun s => if String.eqb s "x" then -1 else 2). cbn. split; [lra|]. split; lra.
Qed.
Example ex_C207_angles : let e : @K RealOps := fun p => p "r"%string * cos (p "phi"%string) in
  only_of spherical_symbols e /\
  exists p q : point, 0 < p "r"%string /\ 0 < p "theta"%string < PI /\ - (PI / 2) < p "phi"%string < PI / 2 /\
    0 < q "r"%string /\ 0 < q "theta"%string < PI /\ PI / 2 < q "phi"%string < 3 * (PI / 2).
Proof.
  assert (P := PI_RGT_0). split; [intros p q H; rewrite !H by (cbn; tauto); reflexivity|].
  exists (fun s => if String.eqb s "phi" then 0 else if String.eqb s "theta" then PI / 2 else 1), (fun s => if String.eqb s "phi" then PI else if String.eqb s "theta" then PI / 2 else 1). cbn. repeat split; lra.
Qed.
