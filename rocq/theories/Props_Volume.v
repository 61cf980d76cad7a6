(** Volume elements, contracted Christoffel symbols, divergences and curls: C176 - C179. *)
From Coq Require Import QArith.
From Verif Require Import Alg Arr Spec TensorM WorldM SpecWorld CalcM SpecCalc CurvM SpecCurv SpecCov SpecDeriv SpecLine LineM SpecVolume VolRun_P Inst InstExp Witness_Volume_P.
Local Open Scope nat_scope.

Section Volume.
Context {A : AlgOps} {L : AlgLaws A} {D : DiffLaws A}.
Variables (n : nat) (m c : oid) (name : string) (xs : list string) (g gi : nat -> nat -> K).
Notation session w := (metric_session w n m c name xs g gi).
Notation known w := (known_results n xs g gi w m c name).
Notation Gam := (Gam n xs g gi).
Notation yields := (yields n xs g gi).

(** C176.  The volume element squared that is shown is the determinant of the metric and has an
    inverse; its derivative with x^i is 2 v Gamma^k_ik, for the Christoffel symbols that
    calc_christoffel computes. *)
Theorem C176_volume_and_christoffel w coords :
  session w -> known w -> coords = None \/ coords = Some c ->
  exists v, volume_element m coords w = (Ok v, w) /\ keq v (determinant n g) /\ (exists v', keq (kmul v v') k1) /\
    gives n xs g gi (calc_christoffel m) m c name [(name ++ " Christoffel")%string] [1; -1; -1]%Z
      (fun idx => Gam (nth 0 idx 0) (nth 1 idx 0) (nth 2 idx 0)) w /\
    forall i, i < n ->
      keq (kdiff (nth i xs ""%string) v) (kmul (kmul (knat 2) v) (nsum n (fun k => Gam k i k))) /\
      keq (kdiff (nth i xs ""%string) v) (kmul (kmul (knat 2) v) (nsum n (fun k => Gam k k i))).
Proof. exact (volume_christoffel n m c name xs g gi w coords). Qed.

(** C177.  The divergence CovariantD("a") @ T("ab...") of a vector, and of a tensor of any rank
    with upper indices only that changes its sign when the first index is exchanged with any
    other, is the divergence weighted with the volume element: there are no other Christoffel
    symbols in it. *)
Theorem C177_divergence_and_volume w t r h syms a coords :
  session w -> known w -> tensor_value w n m c t (repeat 1%Z (S r)) h -> ~ named w "TEMP" t ->
  antisymmetric_first n (S r) h -> NoDup (a :: syms) -> length syms = r -> two_letters_free (a :: syms) ->
  coords = None \/ coords = Some c ->
  exists v f, volume_element m coords w = (Ok v, w) /\
    yields (derivative t a (a :: syms)) m c name [(name ++ " Christoffel")%string] syms (repeat 1%Z r) f w /\
    forall idx, in_range n r idx -> keq (kmul (kmul (knat 2) v) (f idx)) (weighted_divergence n (cx xs) v h idx).
Proof. exact (divergence_volume n m c name xs g gi w t r h syms a coords). Qed.

(** The same for a covector, whose index is raised first. *)
Theorem C177_covector_divergence w t h a coords :
  session w -> known w -> tensor_value w n m c t [-1]%Z h -> ~ named w "TEMP" t -> two_letters_free [a] ->
  coords = None \/ coords = Some c ->
  exists v f, volume_element m coords w = (Ok v, w) /\
    yields (derivative t a [a]) m c name [(name ++ " Christoffel")%string] [] [] f w /\
    keq (kmul (kmul (knat 2) v) (f [])) (weighted_divergence n (cx xs) v (raised_vector n gi h) []).
Proof. exact (divergence_covector n m c name xs g gi w t h a coords). Qed.

(** C178.  The Laplacian: the gradient of a scalar, made a tensor with Calc, and its divergence. *)
Theorem C178_laplacian w t h nm a coords :
  session w -> known w -> tensor_value w n m c t [] h -> ~ named w "TEMP" t ->
  nm <> "TEMP"%string -> ~ In nm (curvature_names name) -> two_letters_free [a] -> coords = None \/ coords = Some c ->
  exists v f, volume_element m coords w = (Ok v, w) /\
    yields (let! z := derivative t a [] in let! t' := run_calc z nm "" [] in derivative t' a [a]) m c name
      [nm; (name ++ " Christoffel")%string] [] [] f w /\
    keq (kmul (kmul (knat 2) v) (f []))
        (weighted_divergence n (cx xs) v
           (fun idx => nsum n (fun b => kmul (gi (nth 0 idx 0) b) (kdiff (nth b xs ""%string) (h [])))) []).
Proof. exact (laplacian n m c name xs g gi w t h nm a coords). Qed.

(** C179.  The curl of a covector, and the cyclic sum of the derivatives of an antisymmetric
    tensor with two lower indices, are those of the partial derivatives. *)
Theorem C179_curl w t h a b :
  session w -> known w -> tensor_value w n m c t [-1]%Z h -> ~ named w "TEMP" t -> a <> b -> two_letters_free [a; b] ->
  exists f, yields (derivative t a [b]) m c name [(name ++ " Christoffel")%string] [a; b] [-1; -1]%Z f w /\
    forall p q, p < n -> q < n ->
      keq (ksub (f [p; q]) (f [q; p])) (ksub (kdiff (nth p xs ""%string) (h [q])) (kdiff (nth q xs ""%string) (h [p]))).
Proof. exact (curl_computed n m c name xs g gi w t h a b). Qed.
Theorem C179_cyclic_sum w t h a b d :
  session w -> known w -> tensor_value w n m c t [-1; -1]%Z h -> ~ named w "TEMP" t ->
  (forall p q, p < n -> q < n -> keq (h [q; p]) (kopp (h [p; q]))) -> NoDup [a; b; d] -> two_letters_free [a; b; d] ->
  exists f, yields (derivative t a [b; d]) m c name [(name ++ " Christoffel")%string] [a; b; d] [-1; -1; -1]%Z f w /\
    forall p q s, p < n -> q < n -> s < n ->
      keq (kadd (kadd (f [p; q; s]) (f [q; s; p])) (f [s; p; q]))
          (kadd (kadd (kdiff (nth p xs ""%string) (h [q; s])) (kdiff (nth q xs ""%string) (h [s; p])))
                (kdiff (nth s xs ""%string) (h [p; q]))).
Proof. exact (cyclic_computed n m c name xs g gi w t h a b d). Qed.
End Volume.
Print Assumptions C176_volume_and_christoffel.
Print Assumptions C177_divergence_and_volume.
Print Assumptions C177_covector_divergence.
Print Assumptions C178_laplacian.
Print Assumptions C179_curl.
Print Assumptions C179_cyclic_sum.

(** Hyperbolic space with the metric dx^2 + exp(2x) (dy^2 + dz^2): a session with a vector, a
    covector, an antisymmetric tensor with two upper indices, one with two lower indices, and a
    scalar.  The volume element is exp(4x), which is not constant. *)
Example volume_session_met :
  metric_session hyp_w 3 1 0 "g" hyp_xyz (emat hyp_g) (emat hyp_gi) /\
  known_results 3 hyp_xyz (emat hyp_g) (emat hyp_gi) hyp_w 1 0 "g".
Proof. exact hyp_session. Qed.
Example volume_tensors_met :
  (exists h, tensor_value hyp_w 3 1 0 2 (repeat 1%Z 1) h /\ antisymmetric_first 3 1 h) /\ ~ named hyp_w "TEMP" 2 /\
  (exists h, tensor_value hyp_w 3 1 0 3 [-1]%Z h) /\ ~ named hyp_w "TEMP" 3 /\
  (exists h, tensor_value hyp_w 3 1 0 4 (repeat 1%Z 2) h /\ antisymmetric_first 3 2 h) /\ ~ named hyp_w "TEMP" 4 /\
  (exists h, tensor_value hyp_w 3 1 0 5 [-1; -1]%Z h /\ forall p q, p < 3 -> q < 3 -> keq (h [q; p]) (kopp (h [p; q]))) /\ ~ named hyp_w "TEMP" 5 /\
  (exists h, tensor_value hyp_w 3 1 0 6 [] h) /\ ~ named hyp_w "TEMP" 6.
Proof. exact hyp_tensors. Qed.
Example volume_not_constant :
  exists v, @volume_element ExpOps 1 None hyp_w = (Ok v, hyp_w) /\ @keq ExpOps v e_4x /\
    @keq ExpOps (@kdiff ExpOps "x" v) (PMul (PC 4%Q) e_4x) /\ ~ @keq ExpOps (@kdiff ExpOps "x" v) (@k0 ExpOps).
Proof. exact hyp_volume. Qed.
Example volume_names_met :
  NoDup ["a"; "b"; "c"]%string /\ two_letters_free ["a"; "b"; "c"]%string /\ "P"%string <> "TEMP"%string /\ ~ In "P"%string (curvature_names "g").
Proof. exact hyp_letters. Qed.
