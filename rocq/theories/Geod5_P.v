(** The values of the Lagrangian and geodesic functions, in the terms of SpecGeod. *)
From Verif Require Import Alg Alg_P Spec TensorM WorldM CurvM SpecCurv CurvRun_P GeodM SpecGeod Geod2_P Geod3_P.
Local Open Scope nat_scope.

Section Gives.
Context {A : AlgOps} {L : AlgLaws A} {D : DiffLaws A} {C : CleanLaws A}.
Variables (n : nat) (m c : oid) (name : string) (xs : list string) (g gi : nat -> nat -> K).
Notation session w := (metric_session w n m c name xs g gi).
Notation known w := (known_results n xs g gi w m c name).
Notation curves w := (known_curves n xs g gi w m c name).

Lemma lagrangian_gives w coords : session w -> known w -> curves w -> coords = None \/ coords = Some c ->
  gives_curve n xs g gi (calc_lagrangian m coords) m c name [(name ++ " Lagrangian")%string] CLagrangian [] (is_lagrangian n xs g) w.
Proof.
  intros HS Ka Kc Hc. apply known_all_spec in Ka. apply known_cs_spec in Kc.
  eapply cdone_gives; [exact HS|]. apply lagrangian_done; assumption.
Qed.
Lemma geodesic_christoffel_gives w coords : session w -> known w -> curves w -> coords = None \/ coords = Some c ->
  gives_curve n xs g gi (calc_geodesic_christoffel m coords) m c name
    [(name ++ " Christoffel")%string; (name ++ " Geodesic From Christoffel")%string] CGeodesic [1]%Z (is_geodesic n (Geo n xs g gi)) w.
Proof.
  intros HS Ka Kc Hc. apply known_all_spec in Ka. apply known_cs_spec in Kc.
  eapply cdone_gives; [exact HS|]. apply geodesic_christoffel_done; assumption.
Qed.
Lemma geodesic_time_gives w coords : session w -> known w -> curves w -> coords = None \/ coords = Some c ->
  gives_curve n xs g gi (calc_geodesic_time m coords) m c name
    [(name ++ " Christoffel")%string; (name ++ " Geodesic With Time Parameter")%string] CGeodesic [1]%Z (is_geodesic n (Geo_time n xs g gi)) w.
Proof.
  intros HS Ka Kc Hc. apply known_all_spec in Ka. apply known_cs_spec in Kc.
  eapply cdone_gives; [exact HS|]. apply geodesic_time_done; assumption.
Qed.
Lemma geodesic_lagrangian_along {Y : SymLaws A} p w coords : session w -> known w -> curves w -> static_along p n xs g -> coords = None \/ coords = Some c ->
  gives_curve n xs g gi (calc_geodesic_lagrangian_with p m coords) m c name
    [(name ++ " Lagrangian")%string; (name ++ " Geodesic From Lagrangian")%string] CGeodesic [1]%Z (is_geodesic n (Geo_lowered n xs g gi)) w.
Proof.
  intros HS Ka Kc Hst Hc. apply known_all_spec in Ka. apply known_cs_spec in Kc.
  eapply cdone_gives; [exact HS|]. apply geodesic_lagrangian_done; assumption.
Qed.
Lemma geodesic_lagrangian_gives {Y : SymLaws A} w coords : session w -> known w -> curves w -> static_metric n xs g -> coords = None \/ coords = Some c ->
  gives_curve n xs g gi (calc_geodesic_lagrangian m coords) m c name
    [(name ++ " Lagrangian")%string; (name ++ " Geodesic From Lagrangian")%string] CGeodesic [1]%Z (is_geodesic n (Geo_lowered n xs g gi)) w.
Proof. exact (geodesic_lagrangian_along "lambda" w coords). Qed.
End Gives.
