(** Concrete line elements. *)
From Coq Require Import QArith Qcanon.
From Verif Require Import Alg Alg_P Arr Arr_P Spec UtilsM TensorM Inst Ex WorldM SpecWorld World_P Registry_P History_P LineM SpecLine ExWorld Witness_World_P Witness_History_P Calc_P Witness_Calc_P Witness_Curv_P.
Local Open Scope nat_scope.

Lemma represents_metric {A : AlgOps} g t m w : represents g t m w -> metric_represents g m w.
Proof. intros (a & _ & b & _ & c & d). exact (conj a (conj b (conj c d))). Qed.

Lemma ex_line_hyps :
  consistent ex_geo /\ metric_represents ex_geo 2 ex_hist_w /\ Forall (history_op 2) ex_history2 /\
  dget Nat.eqb 1 (g_rules ex_geo 0) = Some ex_rules /\ g_sys ex_geo 0 /\
  (exists e w', line_element 2 (Some 1) (after ex_history2 ex_hist_w) = (Ok e, w')) /\
  (exists v w', volume_element 2 None (after ex_history2 ex_hist_w) = (Ok v, w')).
Proof.
  split; [apply ex_geo_consistent|]. split; [apply (represents_metric _ 3), ex_hist_represents|]. split; [apply ex_histories|].
  split; [reflexivity|]. split; [left; reflexivity|]. split.
  - destruct (out_ok (line_element 2 (Some 1)) (after ex_history2 ex_hist_w)) as (a & w1 & E1 & _); [vmtrue|]. eauto.
  - destruct (out_ok (volume_element 2 None) (after ex_history2 ex_hist_w)) as (a & w1 & E1 & _); [vmtrue|]. eauto.
Qed.

(** C111: a coordinate called s *)
Definition ex_arc_ops : list (@op PolyOps) :=
  [OpCoordinates (ex_str "SY") (VSyms [2] ["s"; "y"]%string) (VTuple [1]%Z) (ex_str "x") [];
   OpMetric (ex_str "g") (VArr (tab [2; 2] (fun idx => match idx with [i; j] => kdelta i j | _ => k0 end))) (VObj 0) (VTuple [-1; -1]%Z) (ex_str "g")].
Definition ex_arc_w : @world PolyOps := run_all ex_arc_ops empty_world.
Lemma ex_arc_reachable : reachable ex_arc_w.
Proof. apply run_all_reachable; [constructor|vmtrue]. Qed.
Lemma arc_witness : exists (w : @world PolyOps) m e w', reachable w /\ line_element m None w = (Ok e, w') /\
  ~ keq (kdiff "ds" (snd e)) k0.
Proof.
  destruct (differ3_spec (let! e := line_element 1 None in @mret PolyOps (@K PolyOps) (kdiff "ds" (snd e))) (mret (@k0 PolyOps)) ex_arc_w (fun _ => Q2Qc (1 # 1)))
    as (a & w1 & b & w2 & H & H' & N); [vmtrue|].
  apply bind_inv in H as (e & w3 & E & H). apply ret_inv in H as [-> _]. apply ret_inv in H' as [-> _].
  exists ex_arc_w, 1, e, w3. split; [apply ex_arc_reachable|]. split; [exact E|exact N].
Qed.
