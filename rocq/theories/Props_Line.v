(** C110, C111, C112: line elements and volume elements. *)
From Verif Require Import Alg Arr Spec TensorM WorldM SpecWorld LineM SpecLine Det_P Line_P Inst Ex ExWorld Witness_Line_P.
Local Open Scope nat_scope.

Section Line.
Context {A : AlgOps} {L : AlgLaws A} {DL : DiffLaws A} {SL : SubsLaws A} {IL : InvLaws A}.

(** C110.  After any history of requests and changes of defaults the equation printed is that of
    the metric in the coordinates asked for; it is printed whenever the metric has components in
    them, and everything stored stays right. *)
Theorem C110_line_element_value g m ops w oc :
  consistent g -> metric_represents g m w -> Forall (history_op m) ops ->
  exists c, shown_in (after ops w) m oc c /\
  (forall e w', line_element m oc (after ops w) = (Ok e, w') ->
     keq (fst e) (kmul (ksym "ds") (ksym "ds")) /\
     keq (snd e) (quadratic (g_n g) (g_G g c) (fun i => differential (nth i (g_syms g c) ""%string)))) /\
  (forall r w', line_element m oc (after ops w) = (r, w') -> metric_represents g m w') /\
  (forall a w', get_components m (Some c) (Some [-1; -1]%Z) (after ops w) = (Ok a, w') ->
     exists e, line_element m oc (after ops w) = (Ok e, w')).
Proof. exact (fun HC => line_value g HC m ops w oc). Qed.

(** The line element is the same in all coordinates: the differentials of the old coordinates are
    those of the new ones times the derivatives of the rules. *)
Theorem C110_line_element_invariant g c c' R v :
  consistent g -> g_sys g c -> dget Nat.eqb c' (g_rules g c) = Some R ->
  keq (quadratic (g_n g) (g_G g c') v)
      (quadratic (g_n g) (fun i j => subs_seq R (g_G g c i j))
         (fun i => nsum (g_n g) (fun a => kmul (subs_seq R (jacobian_fun (g_syms g c) (g_syms g c') R i a)) (v a)))).
Proof. exact (fun HC Hc HR => line_invariant g HC c c' R Hc HR v). Qed.

(** C112 *)
Theorem C112_volume_element_value g m ops w oc :
  consistent g -> metric_represents g m w -> Forall (history_op m) ops ->
  exists c, shown_in (after ops w) m oc c /\
  (forall v w', volume_element m oc (after ops w) = (Ok v, w') -> keq v (determinant (g_n g) (g_G g c))) /\
  (forall r w', volume_element m oc (after ops w) = (r, w') -> metric_represents g m w') /\
  (forall a w', get_components m (Some c) (Some [-1; -1]%Z) (after ops w) = (Ok a, w') ->
     exists v, volume_element m oc (after ops w) = (Ok v, w')).
Proof. exact (fun HC => volume_value g HC m ops w oc). Qed.

Theorem C112_volume_element_change g c c' R :
  consistent g -> g_sys g c -> dget Nat.eqb c' (g_rules g c) = Some R ->
  let J := fun i a => subs_seq R (jacobian_fun (g_syms g c) (g_syms g c') R i a) in
  keq (determinant (g_n g) (g_G g c'))
      (kmul (kmul (determinant (g_n g) J) (determinant (g_n g) J)) (subs_seq R (determinant (g_n g) (g_G g c)))).
Proof. exact (fun HC Hc HR => volume_change g HC c c' R Hc HR). Qed.

Theorem C112_volume_element_nonzero g c : consistent g -> g_sys g c ->
  keq (kmul (determinant (g_n g) (g_G g c)) (determinant (g_n g) (g_Gi g c))) k1.
Proof. exact (fun HC => inverse_volume g HC c). Qed.

(** The determinant of the statements is the usual one. *)
Theorem C112_determinant_laws n f h :
  keq (determinant n (mat_mul n f h)) (kmul (determinant n f) (determinant n h)) /\
  keq (determinant n (fun i j => f j i)) (determinant n f) /\ keq (determinant n kdelta) k1.
Proof. exact (conj (determinant_mul n f h) (conj (determinant_transpose n f) (determinant_one n))). Qed.
End Line.
Print Assumptions C110_line_element_value.
Print Assumptions C110_line_element_invariant.
Print Assumptions C112_volume_element_value.
Print Assumptions C112_volume_element_change.
Print Assumptions C112_volume_element_nonzero.
Print Assumptions C112_determinant_laws.

Example line_hypotheses_met :
  consistent ex_geo /\ metric_represents ex_geo 2 ex_hist_w /\ Forall (history_op 2) ex_history2 /\
  dget Nat.eqb 1 (g_rules ex_geo 0) = Some ex_rules /\ g_sys ex_geo 0 /\
  (exists e w', line_element 2 (Some 1) (after ex_history2 ex_hist_w) = (Ok e, w')) /\
  (exists v w', volume_element 2 None (after ex_history2 ex_hist_w) = (Ok v, w')).
Proof. exact ex_line_hyps. Qed.

(** C111.  The property is false: the symbol of the line element also is the differential of a
    coordinate called s. *)
Theorem C111_line_element_symbol_refuted :
  exists (w : @world PolyOps) m e w', reachable w /\ line_element m None w = (Ok e, w') /\
  ~ keq (kdiff "ds" (snd e)) k0.
Proof. exact arc_witness. Qed.
Print Assumptions C111_line_element_symbol_refuted.
