(** Specification vocabulary for the start of a session with a metric.  Definitions only. *)
From Verif Require Export SpecCurv.
Local Open Scope nat_scope.

Section SpecStart.
Context {A : AlgOps}.

(** The references of the session are sound and no temporary tensor is in use. *)
Definition in_order (w : world) : Prop := typed w /\ integrity w /\ temps_unused w.

(** [c] is a registered coordinate system with the symbols [xs], and not called "TEMP". *)
Definition chart (w : world) (n : nat) (c : oid) (xs : list string) : Prop :=
  1 <= n /\ coordinate_system w c n /\ In c (insts w) /\ ~ named w "TEMP" c /\
  exists oc, obj_of w c = Some oc /\ o_syms oc = xs /\ length xs = n.

(** The names of the tensors that are computed from the metric called [name]. *)
Definition result_names (name : string) : list string :=
  map (append name) [" Christoffel"; " Riemann"; " Ricci Tensor"; " Ricci Scalar"; " Einstein"; " Weyl Tensor"]%string.
Definition unnamed (w : world) (names : list string) : Prop :=
  forall s j, In s names -> In j (insts w) -> ~ named w s j.

(** [t] is new and registered last, and no other object has changed. *)
Definition added (w w' : world) (t : oid) : Prop :=
  obj_of w t = None /\ insts w' = insts w ++ [t] /\
  forall j, j <> t -> obj_of w' j = obj_of w j /\ cls_of w' j = cls_of w j.

(** Every coordinate system, metric and computed tensor can be used in [w'] as in [w]; here
    [names] are the names of the objects that are new. *)
Definition still_usable (names : list string) (w w' : world) : Prop :=
  (forall n c xs, chart w n c xs -> chart w' n c xs) /\
  (forall n m c name xs g gi, metric_session w n m c name xs g gi -> metric_session w' n m c name xs g gi) /\
  (forall n m c name xs g gi, (forall s, In s names -> ~ In s (result_names name)) ->
     known_results n xs g gi w m c name -> known_results n xs g gi w' m c name).

End SpecStart.
