(** Specification vocabulary for tensor formulas.  Definitions only. *)
From Coq Require Export Permutation.
From Verif Require Export CalcM SpecWorld.

Section SpecCalc.
Context {A : AlgOps}.

(** [x] is the tensor [t] with the object [o], with one index symbol per index and all
    symbols different. *)
Definition labelled (w : world) (x : calc) (t : oid) (o : obj) : Prop :=
  c_role x = RTensor /\ c_tensor x = Some t /\ obj_of w t = Some o /\
  NoDup (c_syms x) /\ length (c_syms x) = length (o_indices o) /\
  o_rank o = length (o_indices o) /\ valid_cfg (o_indices o).

(** [z] is a new tensor with the symbols [s], the metric [m], the components [a] in the
    coordinates [c] and the configuration [i], and no other components. *)
Definition result_is (w : world) (z : calc) (s : list string) (m c : oid) (i : list Z) (a : arr)
  : Prop :=
  c_role z = RTensor /\ c_syms z = s /\
  exists t o, c_tensor z = Some t /\ obj_of w t = Some o /\ cls_of w t = Some CTensor /\
    In t (insts w) /\ o_name o = "TEMP"%string /\ o_metric o = Some m /\ o_coords o = Some c /\
    o_indices o = i /\ o_rank o = length i /\ o_comps o = [(c, [(i, a)])].

(** The configurations i and i' give every symbol the same position (up or down). *)
Definition same_indices (s : list string) (i : list Z) (s' : list string) (i' : list Z) : Prop :=
  length i = length s /\ length i' = length s' /\
  forall x z, In (x, z) (combine s i) <-> In (x, z) (combine s' i').

(** The assignment that gives the symbols [s] the values [ks] and otherwise agrees with f. *)
Definition assign (s : list string) (ks : list nat) (f : string -> nat) (x : string) : nat :=
  match index_of String.eqb x s with Some j => nth j ks 0 | None => f x end.

(** The symbols of s that are not in s'. *)
Definition without (s s' : list string) : list string := filter (fun x => negb (existsb (String.eqb x) s')) s.
(** The symbols of s that are in s'. *)
Definition common (s s' : list string) : list string := filter (fun x => existsb (String.eqb x) s') s.

(** The configuration entries of the symbols of s that are not in s'. *)
Definition indices_without (s : list string) (i : list Z) (s' : list string) : list Z :=
  map snd (filter (fun xz => negb (existsb (String.eqb (fst xz)) s')) (combine s i)).

(** The configuration i2' that the second operand of a product is read in: opposite to the
    first operand at the shared symbols, its own one elsewhere. *)
Definition opposite (s1 : list string) (i1 : list Z) (s2 : list string) (i2 i2' : list Z) : Prop :=
  length i2' = length s2 /\
  forall j x z, nth_error s2 j = Some x -> nth_error i2' j = Some z ->
    (forall p z1, nth_error s1 p = Some x -> nth_error i1 p = Some z1 -> z = (- z1)%Z) /\
    (~ In x s1 -> nth_error i2 j = Some z).

(** What the object stores for its default representation. *)
Definition stored_default (o : obj) (c : oid) (a : arr) : Prop :=
  o_coords o = Some c /\
  exists d, dget Nat.eqb c (o_comps o) = Some d /\ dget cfg_eqb (o_indices o) d = Some a.

(** [G z0 z1] are the components of the metric [o] in the coordinates [c] with the
    configuration (z0, z1), all four of them stored. *)
Definition metric_tables (n : nat) (o : obj) (c : oid) (G : Z -> Z -> arr) : Prop :=
  o_coords o = Some c /\ length (o_indices o) = 2 /\
  exists d, dget Nat.eqb c (o_comps o) = Some d /\
    forall z0 z1, valid_cfg [z0; z1] ->
      dget cfg_eqb [z0; z1] d = Some (G z0 z1) /\ cubic n (G z0 z1) /\ rank (G z0 z1) = 2.

(** The positions of the symbol x in s. *)
Definition occurrences (s : list string) (x : string) : list nat :=
  filter (fun q => String.eqb x (nth q s ""%string)) (seq 0 (length s)).

(** The index tuple of a trace: the first occurrence of a symbol of D gets its entry in ks,
    the second one its entry in ls, all other symbols their value under f. *)
Definition trace_index (s D : list string) (ks ls : list nat) (f : string -> nat) : list nat :=
  map (fun q => let x := nth q s ""%string in
         if existsb (String.eqb x) (firstn q s) then assign D ls f x else assign D ks f x)
      (seq 0 (length s)).

(** The product of the metric components of a trace over the symbols D, each in the
    configuration opposite to that of the two positions. *)
Fixpoint trace_factor (s : list string) (i : list Z) (G : Z -> Z -> arr) (D : list string) (ks ls : list nat) : K :=
  match D, ks, ls with
  | x :: D', k :: ks', l :: ls' =>
    let z q := nth (nth q (occurrences s x) 0) i 0%Z in
    kmul (aget (G (Z.opp (z 0)) (Z.opp (z 1))) [k; l]) (trace_factor s i G D' ks' ls')
  | _, _, _ => k1
  end.

(** Objects of [w] keep their identity, class and attributes in [w'], up to further stored
    components and Jacobians; the registry is the same. *)
Definition same_attrs (o o' : obj) : Prop :=
  o_name o' = o_name o /\ o_symbol o' = o_symbol o /\ o_indices o' = o_indices o /\
  o_rank o' = o_rank o /\ o_coords o' = o_coords o /\ o_metric o' = o_metric o /\
  o_syms o' = o_syms o /\ o_trans o' = o_trans o.

(** No temporary tensor is in use. *)
Definition temps_unused (w : world) : Prop :=
  forall j, In j (insts w) -> named w "TEMP" j -> ~ used w j.

End SpecCalc.

Section SpecKept.
Context {A : AlgOps}.

(** [w'] differs from [w] only in stored components and Jacobians. *)
Definition kept (w w' : world) : Prop :=
  insts w' = insts w /\ length (heap w') = length (heap w) /\
  (forall i, cls_of w' i = cls_of w i) /\
  forall i, match obj_of w i, obj_of w' i with
            | Some o, Some o' => same_attrs o o' /\
                (cls_of w i = Some CCoordinates -> o_comps o' = o_comps o)
            | None, None => True
            | _, _ => False
            end.

End SpecKept.
