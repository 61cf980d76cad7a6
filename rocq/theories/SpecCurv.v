(** Specification vocabulary for curvature.  Definitions only. *)
From Verif Require Export CurvM SpecCalc.

Section Formulas.
Context {A : AlgOps}.

(** The textbook formulas for the dimension [n], coordinates [x], a metric [g] with inverse
    [gi] and a connection [G] (Gamma^i_jk = G i j k). *)
Definition riemann_of (n : nat) (x : nat -> string) (G : nat -> nat -> nat -> K) (r s m v : nat) : K :=
  ksub (kadd (ksub (kdiff (x m) (G r v s)) (kdiff (x v) (G r m s)))
             (nsum n (fun l => kmul (G r m l) (G l v s))))
       (nsum n (fun l => kmul (G r v l) (G l m s))).

(** An index lowered with g. *)
Definition lowered (n : nat) (g : nat -> nat -> K) (R : nat -> nat -> nat -> nat -> K) (r s m v : nat) : K :=
  nsum n (fun l => kmul (g r l) (R l s m v)).

Definition ricci_of (n : nat) (R : nat -> nat -> nat -> nat -> K) (i j : nat) : K :=
  nsum n (fun l => R l i l j).

(** The trace of a tensor of rank 2 with lower indices. *)
Definition trace_of (n : nat) (gi : nat -> nat -> K) (T : nat -> nat -> K) : K :=
  nsum n (fun i => nsum n (fun j => kmul (gi i j) (T i j))).

Definition einstein_of (g : nat -> nat -> K) (Ric : nat -> nat -> K) (S : K) (i j : nat) : K :=
  ksub (Ric i j) (kmul (kmul (kinvn 2) S) (g i j)).

(** C_iklm from R_iklm, R_ij and R, for n >= 3. *)
Definition weyl_of (n : nat) (g : nat -> nat -> K) (R : nat -> nat -> nat -> nat -> K)
  (Ric : nat -> nat -> K) (S : K) (i k l m : nat) : K :=
  kadd (kadd (R i k l m)
    (kmul (kinvn (n - 2))
       (ksub (kadd (ksub (kmul (Ric i m) (g k l)) (kmul (Ric i l) (g k m)))
                   (kmul (Ric k l) (g i m)))
             (kmul (Ric k m) (g i l)))))
    (kmul (kinvn ((n - 2) * (n - 1)))
       (kmul S (ksub (kmul (g i l) (g k m)) (kmul (g i m) (g k l))))).

(** The covariant derivative of a tensor with two lower indices. *)
Definition covariant2 (n : nat) (x : nat -> string) (G : nat -> nat -> nat -> K) (T : nat -> nat -> K)
  (i j k : nat) : K :=
  ksub (ksub (kdiff (x i) (T j k)) (nsum n (fun l => kmul (G l i j) (T l k))))
       (nsum n (fun l => kmul (G l i k) (T j l))).

End Formulas.

Section Sessions.
Context {A : AlgOps}.

(** The metric [m] of the session is a regular symmetric metric: in its default coordinates
    [c], of dimension [n] and with the symbols [xs], its covariant components are [g] and all
    four configurations are stored; its default configuration is (-1,-1).  No temporary tensor
    is in use and neither the metric nor the coordinates is called "TEMP". *)
Definition metric_session (w : world) (n : nat) (m c : oid) (name : string) (xs : list string)
  (g gi : nat -> nat -> K) : Prop :=
  typed w /\ integrity w /\ temps_unused w /\ 1 <= n /\
  coordinate_system w c n /\ In c (insts w) /\ ~ named w "TEMP" c /\
  (exists oc, obj_of w c = Some oc /\ o_syms oc = xs /\ length xs = n) /\
  cls_of w m = Some CMetric /\ In m (insts w) /\ ~ named w "TEMP" m /\
  symmetric_fun n g /\ inverse_fun n g gi /\
  exists o G, obj_of w m = Some o /\ o_name o = name /\ o_metric o = Some m /\
    o_indices o = [-1; -1]%Z /\ o_rank o = 2 /\ metric_tables n o c G /\
    forall i j, i < n -> j < n ->
      keq (aget (G (-1) (-1))%Z [i; j]) (g i j) /\ keq (aget (G 1 1)%Z [i; j]) (gi i j) /\
      keq (aget (G 1 (-1))%Z [i; j]) (kdelta i j) /\ keq (aget (G (-1) 1)%Z [i; j]) (kdelta i j).

(** The tensor [t], in its default representation in the coordinates [c] and with the metric
    [m], has the configuration [i] and the components [f]. *)
Definition tensor_value (w : world) (n : nat) (m c t : oid) (i : list Z) (f : list nat -> K) : Prop :=
  exists k o a, cls_of w t = Some k /\ k <> CCoordinates /\ obj_of w t = Some o /\
    o_metric o = Some m /\ o_indices o = i /\ o_rank o = length i /\ stored_default o c a /\
    holds n (length i) a f.

(** Every registered object with this name is a tensor with these components; this holds in
    particular if there is none. *)
Definition known (w : world) (n : nat) (m c : oid) (name : string) (i : list Z) (f : list nat -> K) : Prop :=
  forall j, In j (insts w) -> named w name j -> tensor_value w n m c j i f.

(** Objects that are not called "TEMP" stay as they are and stay registered; whatever is
    registered afterwards was registered before or has one of the [names]. *)
Definition only_adds (names : list string) (w w' : world) : Prop :=
  (forall j o, obj_of w j = Some o -> o_name o <> "TEMP"%string ->
     obj_of w' j = Some o /\ cls_of w' j = cls_of w j /\ (In j (insts w) -> In j (insts w'))) /\
  (forall j, In j (insts w') ->
     (In j (insts w) /\ forall o, obj_of w' j = Some o -> obj_of w j = Some o) \/
     exists s, In s names /\ named w' s j).

(** The components [h] with the configuration [i], taken to the configuration [j] with the metric. *)
Definition converted (n : nat) (g gi : nat -> nat -> K) (i j : list Z) (h : list nat -> K)
  : list nat -> K :=
  act n (map (fun st => conv g gi (fst st) (snd st)) (combine i j)) h.

(** The components contracted with those in the opposite configuration. *)
Definition norm_of (n : nat) (g gi : nat -> nat -> K) (i : list Z) (h : list nat -> K) : K :=
  lsum (tuples n (length i)) (fun ks => kmul (h ks) (converted n g gi i (map Z.opp i) h ks)).

(** Everything that is stored for the tensor [t] in the coordinates [c] is the tensor with the
    components [h] in the configuration [i]. *)
Definition stored_right (w : world) (n : nat) (c t : oid) (g gi : nat -> nat -> K) (i : list Z)
  (h : list nat -> K) : Prop :=
  forall o d j b, obj_of w t = Some o -> dget Nat.eqb c (o_comps o) = Some d ->
    dget cfg_eqb j d = Some b ->
    valid_cfg j /\ length j = length i /\ holds n (length i) b (converted n g gi i j h).

(** Whatever is not called "TEMP" stays as it is and stays registered, except that components
    may have been added to the tensor [t]; whatever is registered afterwards was registered
    before or has one of the [names]. *)
Definition only_adds_to (t : oid) (names : list string) (w w' : world) : Prop :=
  (forall j o, obj_of w j = Some o -> o_name o <> "TEMP"%string ->
     cls_of w' j = cls_of w j /\ (In j (insts w) -> In j (insts w')) /\
     exists o', obj_of w' j = Some o' /\ (j <> t -> o' = o) /\ same_attrs o o' /\
       forall c d i a, dget Nat.eqb c (o_comps o) = Some d -> dget cfg_eqb i d = Some a ->
         exists d', dget Nat.eqb c (o_comps o') = Some d' /\ dget cfg_eqb i d' = Some a) /\
  (forall j, In j (insts w') -> In j (insts w) \/ exists s, In s names /\ named w' s j).

End Sessions.

Section Curvature.
Context {A : AlgOps}.
Variables (n : nat) (xs : list string) (g gi : nat -> nat -> K).

(** The values of the curvature functions. *)
Definition cx (k : nat) : string := nth k xs ""%string.
Definition Gam := christoffel_of n cx g gi.
Definition Rie := riemann_of n cx Gam.
Definition Ric := ricci_of n Rie.
Definition Sca := trace_of n gi Ric.
Definition Ein := einstein_of g Ric Sca.
Definition Wey := weyl_of n g (lowered n g Rie) Ric Sca.

Definition at3 (f : nat -> nat -> nat -> K) (idx : list nat) : K :=
  f (nth 0 idx 0) (nth 1 idx 0) (nth 2 idx 0).
Definition at4 (f : nat -> nat -> nat -> nat -> K) (idx : list nat) : K :=
  f (nth 0 idx 0) (nth 1 idx 0) (nth 2 idx 0) (nth 3 idx 0).
Definition at2 (f : nat -> nat -> K) (idx : list nat) : K := f (nth 0 idx 0) (nth 1 idx 0).

Definition known_christoffel w m c (name : string) :=
  known w n m c (name ++ " Christoffel") [1; -1; -1]%Z (at3 Gam).
Definition known_riemann w m c (name : string) :=
  known w n m c (name ++ " Riemann") [1; -1; -1; -1]%Z (at4 Rie).
Definition known_ricci w m c (name : string) :=
  known w n m c (name ++ " Ricci Tensor") [-1; -1]%Z (at2 Ric).
Definition known_scalar w m c (name : string) :=
  known w n m c (name ++ " Ricci Scalar") [] (fun _ => Sca).
Definition known_einstein w m c (name : string) :=
  known w n m c (name ++ " Einstein") [-1; -1]%Z (at2 Ein).
Definition known_weyl w m c (name : string) :=
  known w n m c (name ++ " Weyl Tensor") [-1; -1; -1; -1]%Z (at4 Wey).

(** Everything that is registered under the name of a curvature tensor of the metric is that
    tensor. *)
Definition known_results (w : world) (m c : oid) (name : string) : Prop :=
  known_christoffel w m c name /\ known_riemann w m c name /\ known_ricci w m c name /\
  known_scalar w m c name /\ known_einstein w m c name /\ known_weyl w m c name.

(** The call [p] succeeds with a registered tensor that has the configuration [i] and the
    components [f]; it registers nothing but temporary tensors and tensors with the [names], and
    the session stays one to which the same applies. *)
Definition gives (p : M oid) (m c : oid) (name : string) (names : list string) (i : list Z)
  (f : list nat -> K) (w : world) : Prop :=
  exists t w', p w = (Ok t, w') /\ In t (insts w') /\ tensor_value w' n m c t i f /\
    only_adds ("TEMP"%string :: names) w w' /\
    metric_session w' n m c name xs g gi /\ known_results w' m c name.

End Curvature.
