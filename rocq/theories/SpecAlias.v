(** Specification vocabulary for sessions in which callers keep their dictionaries.
    Definitions only. *)
From Verif Require Export AliasM SpecWorld.

Section SpecAlias.
Context {A : AlgOps}.

(** What a caller does: make a dictionary; make a coordinate system, with one of the
    dictionaries or without; change the transformations of a coordinate system; any other
    operation of the session; change a dictionary that they made. *)
Inductive step :=
| SDict (d : dict)
| SCoordinates (name components indices symbol : pyval) (d : option nat)
| SAdd (self : oid) (coords : pyval) (rules : option (list rarg))
| SOp (o : op)
| SChange (d : nat) (x : dict).

(** An operation other than those that have a step of their own. *)
Definition other_op (o : op) : Prop :=
  match o with OpCoordinates _ _ _ _ _ | OpAdd _ _ _ => False | _ => True end.

(** The session as it is: the dictionaries are shared. *)
Definition shared_step (p : step) (s : dworld) : option exn * dworld :=
  let out {X} (r : res X * dworld) :=
    (match fst r with Ok _ => None | Err e => Some e end, snd r) in
  match p with
  | SDict d => (None, mkD (d_w s) (d_dicts s ++ [d]) (d_ref s))
  | SCoordinates n c i x d => out (d_coordinates n c i x d s)
  | SAdd t c r => out (d_add t c r s)
  | SOp o => out (d_run (run_op o) s)
  | SChange d x => (None, mkD (d_w s) (set_nth d x (d_dicts s)) (d_ref s))
  end.

(** The session in which every coordinate system has a copy of the dictionary it was given. *)
Definition copied_step (p : step) (s : world * list dict) : option exn * (world * list dict) :=
  let (w, ds) := s in
  let out (r : res unit * world) :=
    (match fst r with Ok _ => None | Err e => Some e end, (snd r, ds)) in
  match p with
  | SDict d => (None, (w, ds ++ [d]))
  | SCoordinates n c i x d =>
    out (run_op (OpCoordinates n c i x (match d with Some d => nth d ds [] | None => [] end)) w)
  | SAdd t c r => out (run_op (OpAdd t c r) w)
  | SOp o => out (run_op o w)
  | SChange d x => (None, (w, set_nth d x ds))
  end.

(** A sequence of steps, with the errors. *)
Fixpoint run_steps {St} (f : step -> St -> option exn * St) (l : list step) (s : St)
  : list (option exn) * St :=
  match l with
  | [] => ([], s)
  | p :: l' => let (e, s') := f p s in
               let (es, s'') := run_steps f l' s' in (e :: es, s'')
  end.

(** No dictionary with entries is given to two coordinate systems, or changed by the caller
    after it was given to one.  [ds]: the dictionaries made so far, [given]: the numbers of
    those that were given away. *)
Fixpoint given_once (ds : list dict) (given : list nat) (l : list step) : Prop :=
  match l with
  | [] => True
  | SDict d :: l' => given_once (ds ++ [d]) given l'
  | SCoordinates _ _ _ _ (Some d) :: l' =>
    ~ In d given /\
    given_once ds (match nth d ds [] with [] => given | _ => d :: given end) l'
  | SChange d x :: l' => ~ In d given /\ given_once (set_nth d x ds) given l'
  | SOp o :: l' => other_op o /\ given_once ds given l'
  | _ :: l' => given_once ds given l'
  end.

Definition shared_start : dworld := mkD empty_world [] [].
Definition copied_start : world * list dict := (empty_world, []).

(** The entries of the transformations of a coordinate system, as they are in the session. *)
Definition entry_rules (s : dworld) (i c : oid) (rules : list rarg) : Prop :=
  match dget Nat.eqb i (d_ref s) with
  | Some d => dget Nat.eqb c (dict_of s d) = Some rules
  | None => exists o l, obj_of (d_w s) i = Some o /\ dget Nat.eqb c (o_trans o) = Some l /\
                        rules = map REq l
  end.

(** The transformations of object i, as the session sees them. *)
Definition transformations (s : dworld) (i : oid) : option (list (oid * list rule)) :=
  option_map o_trans (obj_of (d_view s) i).

(** The attributes _transformations of two coordinate systems are one dictionary. *)
Definition sharing (s : dworld) (i j : oid) : Prop :=
  exists d, dget Nat.eqb i (d_ref s) = Some d /\ dget Nat.eqb j (d_ref s) = Some d.

(** Steps that give index tuples to the constructor and leave the dictionaries alone. *)
Definition plain_step (p : step) : Prop :=
  match p with
  | SCoordinates _ _ i _ _ => i <> VNone
  | SChange _ _ => False
  | _ => True
  end.

End SpecAlias.
