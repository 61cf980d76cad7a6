(** Properties of the curvature functions: C47 - C53. *)
From Verif Require Import Alg Arr Spec TensorM WorldM SpecWorld CalcM SpecCalc CurvM SpecCurv Curv_P Curv2_P Inst Ex ExWorld Witness_Curv_P.
Local Open Scope nat_scope.

Section Curv.
Context {A : AlgOps} {L : AlgLaws A} {D : DiffLaws A}.
Variables (n : nat) (m c : oid) (name : string) (xs : list string) (g gi : nat -> nat -> K).
Notation session w := (metric_session w n m c name xs g gi).
Notation known w := (known_results n xs g gi w m c name).
Notation Gam := (Gam n xs g gi).
Notation Rie := (Rie n xs g gi).
Notation Ric := (Ric n xs g gi).
Notation Sca := (Sca n xs g gi).
Notation Ein := (Ein n xs g gi).
Notation Wey := (Wey n xs g gi).

(** C47.  [gives] includes that the session stays one to which the theorem applies, so the
    statement covers every sequence of these calls. *)
Theorem C47_christoffel_value w : session w -> known w ->
  gives n xs g gi (calc_christoffel m) m c name [(name ++ " Christoffel")%string] [1; -1; -1]%Z (at3 Gam) w.
Proof. exact (christoffel_gives n m c name xs g gi w). Qed.
Theorem C47_christoffel_symmetric (Hs : symmetric_fun n g) i j k : j < n -> k < n -> keq (Gam i j k) (Gam i k j).
Proof. exact (G_sym n (cx xs) g gi Hs i j k). Qed.
Theorem C47_metric_compatible (Hs : symmetric_fun n g) (Hi : inverse_fun n g gi) i j k : i < n -> j < n -> k < n ->
  keq (covariant2 n (cx xs) Gam g i j k) k0.
Proof. exact (metric_compatible n (cx xs) g gi Hs Hi i j k). Qed.

(** C50 *)
Theorem C50_riemann_value w : session w -> known w ->
  gives n xs g gi (calc_riemann m) m c name [(name ++ " Christoffel"); (name ++ " Riemann")]%string
    [1; -1; -1; -1]%Z (at4 Rie) w.
Proof. exact (riemann_gives n m c name xs g gi w). Qed.
Theorem C50_riemann_antisymmetric r s a b : keq (Rie r s a b) (kopp (Rie r s b a)).
Proof. exact (riemann_antisym n (cx xs) g gi r s a b). Qed.
Theorem C50_riemann_bianchi (Hs : symmetric_fun n g) r s a b : s < n -> a < n -> b < n ->
  keq (kadd (kadd (Rie r s a b) (Rie r a b s)) (Rie r b s a)) k0.
Proof. exact (riemann_bianchi n (cx xs) g gi Hs r s a b). Qed.
Theorem C50_lowered_antisymmetric (Hs : symmetric_fun n g) (Hi : inverse_fun n g gi) r s a b : r < n -> s < n -> a < n -> b < n ->
  keq (lowered n g Rie r s a b) (kopp (lowered n g Rie s r a b)).
Proof. exact (lowered_first_pair n (cx xs) g gi Hs Hi r s a b). Qed.
Theorem C50_lowered_pairs (Hs : symmetric_fun n g) (Hi : inverse_fun n g gi) r s a b : r < n -> s < n -> a < n -> b < n ->
  keq (lowered n g Rie r s a b) (lowered n g Rie a b r s).
Proof. exact (lowered_pairs n (cx xs) g gi Hs Hi r s a b). Qed.

(** C51 *)
Theorem C51_ricci_value w : session w -> known w ->
  gives n xs g gi (calc_ricci m) m c name [(name ++ " Christoffel"); (name ++ " Riemann"); (name ++ " Ricci Tensor")]%string
    [-1; -1]%Z (at2 Ric) w.
Proof. exact (ricci_gives n m c name xs g gi w). Qed.
Theorem C51_scalar_value w : session w -> known w ->
  gives n xs g gi (calc_ricci_scalar m) m c name
    [(name ++ " Christoffel"); (name ++ " Riemann"); (name ++ " Ricci Tensor"); (name ++ " Ricci Scalar")]%string
    [] (fun _ => Sca) w.
Proof. exact (scalar_gives n m c name xs g gi w). Qed.
Theorem C51_einstein_value w : session w -> known w ->
  gives n xs g gi (calc_einstein m) m c name
    [(name ++ " Christoffel"); (name ++ " Riemann"); (name ++ " Ricci Tensor"); (name ++ " Ricci Scalar"); (name ++ " Einstein")]%string
    [-1; -1]%Z (at2 Ein) w.
Proof. exact (einstein_gives n m c name xs g gi w). Qed.
Theorem C51_ricci_symmetric (Hs : symmetric_fun n g) (Hi : inverse_fun n g gi) i j : i < n -> j < n -> keq (Ric i j) (Ric j i).
Proof. exact (ricci_sym n (cx xs) g gi Hs Hi i j). Qed.
Theorem C51_einstein_symmetric (Hs : symmetric_fun n g) (Hi : inverse_fun n g gi) i j : i < n -> j < n -> keq (Ein i j) (Ein j i).
Proof. exact (einstein_sym n (cx xs) g gi Hs Hi Sca i j). Qed.
(** (1 - n/2) R *)
Theorem C51_einstein_trace (Hs : symmetric_fun n g) (Hi : inverse_fun n g gi) :
  keq (trace_of n gi Ein) (ksub Sca (kmul (kinvn 2) (kmul (knat n) Sca))).
Proof. exact (einstein_trace n g gi Hs Hi Ric Sca (reflexivity Sca)). Qed.

(** C52.  The hypothesis on the Ricci tensor says that no registered tensor has it as its
    metric or coordinates; calc_weyl_tensor deletes it (C53). *)
Theorem C52_weyl_value w : session w -> known w -> 3 <= n ->
  (forall j, In j (insts w) -> named w (name ++ " Ricci Tensor") j -> ~ used w j) ->
  exists t w', calc_weyl m w = (Ok t, w') /\ In t (insts w') /\
    tensor_value w' n m c t [-1; -1; -1; -1]%Z (at4 Wey) /\ session w' /\ known w'.
Proof. exact (weyl_gives n m c name xs g gi w). Qed.
Theorem C52_weyl_traces (Hs : symmetric_fun n g) (Hi : inverse_fun n g gi) a b : 3 <= n -> a < n -> b < n ->
  let tr F := nsum n (fun i => nsum n (fun j => kmul (gi i j) (F i j))) in
  keq (tr (fun i j => Wey i j a b)) k0 /\ keq (tr (fun i j => Wey i a j b)) k0 /\ keq (tr (fun i j => Wey i a b j)) k0 /\
  keq (tr (fun i j => Wey a i j b)) k0 /\ keq (tr (fun i j => Wey a i b j)) k0 /\ keq (tr (fun i j => Wey a b i j)) k0.
Proof. exact (weyl_traces n (cx xs) g gi Hs Hi a b). Qed.
Theorem C52_weyl_in_two_dimensions w : session w -> known w -> n = 2 ->
  (forall j, In j (insts w) -> ~ named w (name ++ " Weyl Tensor") j) ->
  exists w', calc_weyl m w = (Err EZeroDivision, w') /\ session w' /\ known w'.
Proof. exact (weyl_two_gives n m c name xs g gi w). Qed.

(** C53, for every such session: the Ricci tensor of the metric is destroyed, a tensor "Result"
    stays registered, and these are the only objects concerned. *)
Theorem C53_weyl_destroys_ricci w t : session w -> known w -> 3 <= n ->
  (forall j, In j (insts w) -> ~ named w (name ++ " Weyl Tensor") j) ->
  In t (insts w) -> named w (name ++ " Ricci Tensor") t ->
  (forall k, In k (insts w) -> named w (name ++ " Ricci Tensor") k -> k = t) -> ~ used w t ->
  exists u r w', calc_weyl m w = (Ok u, w') /\ obj_of w' t = None /\ ~ In t (insts w') /\
    ~ In r (insts w) /\ In r (insts w') /\ named w' "Result" r /\
    (forall j o, j <> t -> obj_of w j = Some o -> o_name o <> "TEMP"%string ->
       obj_of w' j = Some o /\ (In j (insts w) -> In j (insts w'))).
Proof. exact (weyl_destroys n m c name xs g gi w t). Qed.
End Curv.
Print Assumptions C47_christoffel_value.
Print Assumptions C47_christoffel_symmetric.
Print Assumptions C47_metric_compatible.
Print Assumptions C50_riemann_value.
Print Assumptions C50_riemann_antisymmetric.
Print Assumptions C50_riemann_bianchi.
Print Assumptions C50_lowered_antisymmetric.
Print Assumptions C50_lowered_pairs.
Print Assumptions C51_ricci_value.
Print Assumptions C51_scalar_value.
Print Assumptions C51_einstein_value.
Print Assumptions C51_ricci_symmetric.
Print Assumptions C51_einstein_symmetric.
Print Assumptions C51_einstein_trace.
Print Assumptions C52_weyl_value.
Print Assumptions C52_weyl_traces.
Print Assumptions C52_weyl_in_two_dimensions.
Print Assumptions C53_weyl_destroys_ricci.

(** A session of dimension 2 and one of dimension 3 with a metric that is not constant meet the
    hypotheses. *)
Example two_dimensions : metric_session ex_w 2 2 0 "g" ex_xs (mat2 ex_g) (mat2 ex_gi) /\
  known_results 2 ex_xs (mat2 ex_g) (mat2 ex_gi) ex_w 2 0 "g".
Proof. exact ex_two_session. Qed.
Example three_dimensions : metric_session ex_three_w 3 1 0 "g" ex_xyz (mat2 ex_g3) (mat2 ex_gi3) /\
  known_results 3 ex_xyz (mat2 ex_g3) (mat2 ex_gi3) ex_three_w 1 0 "g".
Proof. exact ex_three_session. Qed.
(** The hypotheses of C53 are met after a call of calc_ricci_tensor. *)
Example ricci_computed : exists t w, calc_ricci 1 ex_three_w = (Ok t, w) /\
  metric_session w 3 1 0 "g" ex_xyz (mat2 ex_g3) (mat2 ex_gi3) /\
  known_results 3 ex_xyz (mat2 ex_g3) (mat2 ex_gi3) w 1 0 "g" /\
  (forall j, In j (insts w) -> ~ named w "g Weyl Tensor" j) /\
  In t (insts w) /\ named w "g Ricci Tensor" t /\
  (forall k, In k (insts w) -> named w "g Ricci Tensor" k -> k = t) /\ ~ used w t.
Proof. exact ex_ricci_session. Qed.

(** C48.  The property is false: with the default configuration (1,1) the formula reads the
    upper components as the lower ones. *)
Theorem C48_upper_metric_refuted :
  exists (w : @world PolyOps) m1 m2 c a w1 b w2 t1 w3 t2 w4 r1 w5 r2 w6 i j k,
  reachable w /\ get_components m1 (Some c) (Some [-1; -1]%Z) w = (Ok a, w1) /\ get_components m2 (Some c) (Some [-1; -1]%Z) w1 = (Ok b, w2) /\
  (forall p q, p < 2 -> q < 2 -> keq (aget a [p; q]) (aget b [p; q])) /\
  calc_christoffel m1 w2 = (Ok t1, w3) /\ calc_christoffel m2 w3 = (Ok t2, w4) /\
  get_components t1 (Some c) (Some [1; -1; -1]%Z) w4 = (Ok r1, w5) /\ get_components t2 (Some c) (Some [1; -1; -1]%Z) w5 = (Ok r2, w6) /\
  i < 2 /\ j < 2 /\ k < 2 /\ ~ keq (aget r1 [i; j; k]) (aget r2 [i; j; k]).
Proof. exact upper_metric_witness. Qed.
Print Assumptions C48_upper_metric_refuted.

(** C49.  The property is false: two metrics with the same name share the results. *)
Theorem C49_shared_result_refuted :
  exists (w : @world PolyOps) m1 m2 t w1 w1' t' w2 c r w3 r' w4 i j k,
  reachable w /\ m1 <> m2 /\ calc_christoffel m1 w = (Ok t, w1) /\ calc_christoffel m2 w1 = (Ok t, w1') /\
  calc_christoffel m2 w = (Ok t', w2) /\
  get_components t (Some c) (Some [1; -1; -1]%Z) w1' = (Ok r, w3) /\ get_components t' (Some c) (Some [1; -1; -1]%Z) w2 = (Ok r', w4) /\
  i < 2 /\ j < 2 /\ k < 2 /\ ~ keq (aget r [i; j; k]) (aget r' [i; j; k]).
Proof. exact shared_result_witness. Qed.
Print Assumptions C49_shared_result_refuted.

(** C53.  The property is false. *)
Theorem C53_weyl_deletes_refuted :
  exists (w : @world PolyOps) m t w1 u w2 r,
  reachable w /\ calc_ricci m w = (Ok t, w1) /\ In t (insts w1) /\ calc_weyl m w1 = (Ok u, w2) /\ ~ In t (insts w2) /\
  ~ In r (insts w1) /\ In r (insts w2) /\ named w2 "Result" r.
Proof. exact weyl_deletes_witness. Qed.
Print Assumptions C53_weyl_deletes_refuted.
