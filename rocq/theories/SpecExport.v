(** Vocabulary of the theorems about export and import.  Definitions only. *)
From Verif Require Import Base LexM ParseM InterpM SpecParse WorldM SpecWorld ExportM.
From Coq Require Import Ascii.
Import List.

Section SpecExport.
Context {A : AlgOps} {O : PyOps} {C : CodeOps}.

(** Hypotheses on SymPy: == is the equality of expressions, a symbol is a scalar, and 1 and
    -1 are read as the integers. *)
Class CodeLaws : Prop := {
  same_spec : forall x y : E, o_same x y = true <-> x = y;
  symbol_scalar : forall x s, to_symbol x = Some s -> to_scalar x = Some (ksym s);
  read_one : exists x y, o_sympify (chars "1") = Ok x /\ to_int x = Some 1%Z /\
                         o_neg x = Ok y /\ to_int y = Some (-1)%Z
}.

(** The Mathematica code of k is the writing of an expression with the value x. *)
Definition reads (k : K) (x : E) : Prop :=
  exists sp e, words_ok e /\ c_code k = show sp 1 e /\ meaning e = Ok x.

(** Scalars, symbols and rules whose code is read back as the same thing. *)
Definition scalar_back (k : K) : Prop := exists x, reads k x /\ to_scalar x = Some k.
Definition symbol_back (s : string) : Prop := exists x, reads (ksym s) x /\ to_symbol x = Some s.
Definition rule_back (r : string * K) : Prop :=
  exists a b e, reads (ksym (fst r)) a /\ reads (snd r) b /\ o_eq a b = Ok e /\ to_rule e = REq r.

(** Arrays of n entries in every direction, all read back. *)
Definition array_back (n : nat) (a : arr) : Prop :=
  cubic n a /\ Forall scalar_back (data a).

Definition plain (s : string) : Prop := plain_name (chars s).

(** The name an object goes by. *)
Definition name_in (w : world) (i : oid) : string :=
  match obj_of w i with Some o => o_name o | None => EmptyString end.

(** Objects a dictionary of [o] has as keys: they still have their attributes, and their
    names are plain and different. *)
Definition keys_named {V : Type} (w : world) (d : list (oid * V)) : Prop :=
  NoDup (map (fun e => name_in w (fst e)) d) /\
  Forall (fun e => obj_of w (fst e) <> None /\ plain (name_in w (fst e))) d.

(** All that is stored of the components of an object can be written and read back; [n] is
    the dimension. *)
Definition components_back (w : world) (n : nat) (o : obj) : Prop :=
  keys_named w (o_comps o) /\
  Forall (fun e => cls_of w (fst e) = Some CCoordinates /\ NoDup (map fst (snd e)) /\
                   Forall (fun ia => valid_cfg (fst ia) /\ array_back n (snd ia)) (snd e)) (o_comps o).

(** The default components. *)
Definition default_components (o : obj) (c : oid) (a : arr) : Prop :=
  exists d, dget Nat.eqb c (o_comps o) = Some d /\ dget cfg_eqb (o_indices o) d = Some a.

(** The components of a scalar are an array only in the coordinates it was made in, which
    are the first ones stored. *)
Definition made_in (o : obj) (c : oid) : Prop :=
  o_rank o = 0 -> exists d l, o_comps o = (c, d) :: l.

(** The name and the symbol can be written and read back. *)
Definition label_back (o : obj) : Prop :=
  plain (o_name o) /\ o_symbol o <> EmptyString /\ symbol_back (o_symbol o).

(** [t] is an exportable tensor or metric with the default coordinates c, the metric m and
    the default components a. *)
Definition tensor_back (w : world) (n : nat) (t c m : oid) (k : cls) (o : obj) (a : arr) : Prop :=
  k <> CCoordinates /\ cls_of w t = Some k /\ obj_of w t = Some o /\ label_back o /\
  components_back w n o /\ 2 <= n /\
  o_coords o = Some c /\ obj_of w c <> None /\ plain (name_in w c) /\
  o_metric o = Some m /\ obj_of w m <> None /\ plain (name_in w m) /\
  valid_cfg (o_indices o) /\ length (o_indices o) = rank a /\ default_components o c a /\
  made_in o c.

(** [t] is an exportable coordinate system. *)
Definition coords_back (w : world) (n : nat) (t : oid) (o : obj) : Prop :=
  cls_of w t = Some CCoordinates /\ obj_of w t = Some o /\ label_back o /\ 2 <= n /\
  o_comps o = [(t, [([1]%Z, mkArr [n] (map ksym (o_syms o)))])] /\ o_indices o = [1]%Z /\
  length (o_syms o) = n /\ Forall symbol_back (o_syms o) /\
  keys_named w (o_jacs o) /\
  Forall (fun e => let '(j, i, c) := snd e in array_back n j /\ array_back n i /\ array_back n c) (o_jacs o) /\
  keys_named w (o_trans o) /\
  Forall (fun e => name_in w (fst e) <> "CoordTransformations"%string /\
                   NoDup (map fst (snd e)) /\ Forall rule_back (snd e)) (o_trans o).

(** SymPy finds the matrix a of size n symmetric, its determinant different from 0, and gi
    as its inverse. *)
Definition accepted_metric (n : nat) (a gi : arr) : Prop :=
  mdet0 n (data a) = false /\
  (forall i j, i < n -> j < n ->
     kisz (simp (ksub (nth (i * n + j) (data a) k0) (nth (j * n + i) (data a) k0))) = true) /\
  minv n (data a) = Some (data gi) /\ shape gi = [n; n].

(** The objects with the name s, in the order of their creation. *)
Definition objects_named (w : world) (s : string) : list oid :=
  filter (fun i => String.eqb (name_in w i) s) (insts w).

(** The objects made from the text of o: a tensor with the coordinates c and the metric m, a
    metric, and coordinates with the transformations tr. *)
Definition tensor_copy (o : obj) (c m : oid) (a : arr) : obj :=
  mkObj (o_name o) (o_symbol o) (o_indices o) (rank a) (Some c) (Some m)
    [(c, [(o_indices o, a)])] [] [] [].
Definition metric_copy (o : obj) (self c : oid) (a gi : arr) : obj :=
  mkObj (o_name o) (o_symbol o) (o_indices o) (rank a) (Some c) (Some self)
    [(c, [(o_indices o, a); ([1; -1]%Z, eye (hd 0 (shape a))); ([-1; 1]%Z, eye (hd 0 (shape a)));
          (map Z.opp (o_indices o), gi)])] [] [] [].
Definition coords_copy (o : obj) (self : oid) (n : nat) (tr : list (oid * list (string * K))) : obj :=
  mkObj (o_name o) (o_symbol o) [1]%Z 1 None None
    [(self, [([1]%Z, mkArr [n] (map ksym (o_syms o)))])] (o_syms o) tr [].

(** The transformations of o, to all objects of w2 with the names of the targets in w. *)
Definition found_rules (w w2 : world) (o : obj) : list (oid * list (string * K)) :=
  flat_map (fun e => map (fun j => (j, snd e)) (objects_named w2 (name_in w (fst e)))) (o_trans o).

(** What is needed to know of an object of an exportable session. *)
Inductive portrait : Type :=
| PCoords (n : nat) (o : obj)
| PMetric (n : nat) (c : oid) (o : obj) (a gi : arr)
| PTensor (n : nat) (c m : oid) (k : cls) (o : obj) (a : arr).

Definition portrays (w : world) (i : oid) (p : portrait) : Prop :=
  match p with
  | PCoords n o =>
      coords_back w n i o /\
      Forall (fun e => fst e <> i /\ cls_of w (fst e) = Some CCoordinates) (o_trans o)
  | PMetric n c o a gi =>
      tensor_back w n i c i CMetric o a /\ coordinate_system w c n /\
      (o_indices o = [-1; -1]%Z \/ o_indices o = [1; 1]%Z) /\ accepted_metric n a gi
  | PTensor n c m k o a =>
      k <> CMetric /\ tensor_back w n i c m k o a /\ coordinate_system w c n /\
      cls_of w m = Some CMetric
  end.

(** A session that can be written and read back. *)
Definition session_back (w : world) (P : oid -> portrait) : Prop :=
  integrity w /\ insts w <> [] /\ NoDup (map (name_in w) (insts w)) /\
  forall i, In i (insts w) -> name_in w i <> "Options"%string /\ portrays w i (P i).

(** The copy of i is the object f i. *)
Definition copied (w3 : world) (f : oid -> oid) (i : oid) (p : portrait) : Prop :=
  match p with
  | PCoords n o =>
      cls_of w3 (f i) = Some CCoordinates /\
      obj_of w3 (f i) = Some (coords_copy o (f i) n (map (fun e => (f (fst e), snd e)) (o_trans o)))
  | PMetric n c o a gi =>
      cls_of w3 (f i) = Some CMetric /\ obj_of w3 (f i) = Some (metric_copy o (f i) (f c) a gi)
  | PTensor n c m k o a =>
      cls_of w3 (f i) = Some k /\ obj_of w3 (f i) = Some (tensor_copy o (f c) (f m) a)
  end.

(** The objects of a session as they are registered when it is read back: coordinates,
    metrics, other tensors. *)
Definition import_order (w : world) : list oid :=
  let of_class q := filter (fun i => match cls_of w i with Some k => q k | None => false end) (insts w) in
  of_class (fun k => match k with CCoordinates => true | _ => false end)
  ++ of_class (fun k => match k with CMetric => true | _ => false end)
  ++ of_class (fun k => match k with CCoordinates | CMetric => false | _ => true end).

(** The session w' is w with one more object: i, of the class k and with the attributes o. *)
Definition one_more (w w' : world) (i : oid) (k : cls) (o : obj) : Prop :=
  ~ In i (insts w) /\ obj_of w i = None /\ insts w' = insts w ++ [i] /\
  cls_of w' i = Some k /\ obj_of w' i = Some o /\
  forall j, j <> i -> obj_of w' j = obj_of w j /\ cls_of w' j = cls_of w j.

(** Reading a text [s] in the session [w] ends, with this outcome. *)
Definition ends {X : Type} (f : nat -> M X) (w : world) (r : res X * world) : Prop :=
  exists n, forall m, n <= m -> f m w = r.

(** The symbol of an object made without one. *)
Definition usual_symbol (k : cls) : string :=
  match k with
  | CCoordinates => "x" | CMetric => "g" | CTensor => "T" | CChristoffel => "Gamma"
  | CLagrangian => "L" | CGeodesic => "0"
  end.

(** [d] is the association of the first object in the text [s], read with fuel n. *)
Definition first_object (n : nat) (s : text) (d : list (val * val)) : Prop :=
  exists pre name post, parse_str n s = Ok (VD (pre ++ (name, VD d) :: post)) /\
  Forall (fun p => fst p = VS (chars "Options")) pre /\ name <> VS (chars "Options").

End SpecExport.
