(** Properties of the history of a tensor: C14, C64. *)
From Coq Require Import QArith.
From Verif Require Import Alg Arr Spec TensorM WorldM SpecWorld History_P Inst Ex ExWorld Witness_History_P.
Local Open Scope nat_scope.

Section History.
Context {A : AlgOps} {L : AlgLaws A} {DL : DiffLaws A} {SL : SubsLaws A} {IL : InvLaws A}.

(** C14.  Two histories of requests and changes of defaults, on the tensor, its metric and
    any other object, do not change the components returned by the same request, when the
    transformation rules are consistent and the metric has no mixed default configuration. *)
Theorem C14_history_independence g t m w ops ops' c i a b w1 w2 :
  consistent g -> represents g t m w -> Forall (history_op m) ops -> Forall (history_op m) ops' ->
  get_components t (Some c) (Some i) (after ops w) = (Ok a, w1) ->
  get_components t (Some c) (Some i) (after ops' w) = (Ok b, w2) -> aeq a b.
Proof. exact (history_independent g t m w ops ops' c i a b w1 w2). Qed.

(** The components returned are those of the tensor and of the metric in the coordinates and
    with the configuration asked for, and everything stored stays right. *)
Theorem C14_history_values g t m w ops :
  consistent g -> represents g t m w -> Forall (history_op m) ops ->
  represents g t m (after ops w) /\
  (forall c i a w', get_components t (Some c) (Some i) (after ops w) = (Ok a, w') ->
     holds (g_n g) (g_r g) a (with_indices g c i (g_T g c))) /\
  (forall c i a w', get_components m (Some c) (Some i) (after ops w) = (Ok a, w') ->
     holds (g_n g) 2 a (with_indices g c i (mat_comps (g_G g c)))).
Proof. exact (history_sound g t m w ops). Qed.
End History.
Print Assumptions C14_history_independence.
Print Assumptions C14_history_values.

Example C14_history_example :
  consistent ex_geo /\ represents ex_geo 3 2 ex_hist_w /\
  Forall (history_op 2) ex_history1 /\ Forall (history_op 2) ex_history2 /\
  exists a b w1 w2, get_components 3 (Some 1) (Some [1]%Z) (after ex_history1 ex_hist_w) = (Ok a, w1) /\
    get_components 3 (Some 1) (Some [1]%Z) (after ex_history2 ex_hist_w) = (Ok b, w2).
Proof. exact (conj ex_geo_consistent (conj ex_hist_represents ex_histories)). Qed.

(** C64.  The property is false: a request in new coordinates while the metric has a mixed
    default configuration stores wrong components. *)
Theorem C64_mixed_default_refuted :
  exists (g : @geometry PolyOps) t m w ops c a b w1 w2 i j,
  consistent g /\ represents g t m w /\
  Forall (fun o => match o with OpGet _ _ _ | OpIndices _ _ => True | _ => False end) ops /\
  get_components m (Some c) (Some [-1; -1]%Z) (after ops w) = (Ok a, w1) /\
  get_components m (Some c) (Some [-1; -1]%Z) w = (Ok b, w2) /\
  ~ keq (aget a [i; j]) (aget b [i; j]).
Proof. exact mixed_default_witness. Qed.
Print Assumptions C64_mixed_default_refuted.
