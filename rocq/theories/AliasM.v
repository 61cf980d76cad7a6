(** Sessions in which the transformations of a coordinate system are the dictionary that the
    caller gave.  Coordinates.py 45-82: [self._transformations = transformations] keeps a
    reference to the dictionary, unless it is empty or None; WorldM.v copies it.
    Definitions only. *)
From Verif Require Export WorldM.

Section AliasM.
Context {A : AlgOps}.

(** A dictionary that a caller makes: coordinate systems with lists of rules. *)
Definition dict : Type := list (oid * list rarg).

(** [d_w]: the objects; [d_dicts]: the dictionaries of the caller, as they are now; [d_ref]: the
    coordinate systems whose attribute _transformations is one of these dictionaries, with its
    number.  The attribute of every other coordinate system is a dictionary of its own, which
    is the field [o_trans] of the object. *)
Record dworld := mkD { d_w : world; d_dicts : list dict; d_ref : list (oid * nat) }.

Definition dict_of (s : dworld) (d : nat) : dict := nth d (d_dicts s) [].

(** The rules of a dictionary as the other methods read them. *)
Definition dict_rules (d : dict) : list (oid * list rule) :=
  map (fun cr => (fst cr, stored_rules (snd cr))) d.

(** The attribute _transformations of object i is read: through the reference. *)
Definition see (s : dworld) (i : oid) (o : obj) : obj :=
  match dget Nat.eqb i (d_ref s) with
  | Some d => set_trans (dict_rules (dict_of s d)) o
  | None => o
  end.

(** The session as all methods see it. *)
Definition d_view (s : dworld) : world :=
  mkW (map (fun e => (fst (snd e), option_map (see s (fst e)) (snd (snd e))))
         (combine (seq 0 (length (heap (d_w s)))) (heap (d_w s))))
      (insts (d_w s)).

(** A statement that does not change _transformations. *)
Definition d_run {X} (m : M X) (s : dworld) : res X * dworld :=
  let (r, w) := m (d_view s) in (r, mkD w (d_dicts s) (d_ref s)).

(** Coordinates.py 45-82; [d]: the number of the dictionary given, or None.  [if transformations]
    is false for an empty dictionary. *)
Definition d_coordinates (name components indices symbol : pyval) (d : option nat) (s : dworld)
  : res oid * dworld :=
  let x := match d with Some d => dict_of s d | None => [] end in
  match d_run (new_coordinates name components indices symbol x) s with
  | (Ok i, s') =>
    match d, x with
    | Some d, _ :: _ => (Ok i, mkD (d_w s') (d_dicts s') ((i, d) :: d_ref s'))
    | _, _ => (Ok i, s')
    end
  | r => r
  end.

(** Coordinates.py 466-485: d[coords] = rules or del d[coords]. *)
Definition dict_change (c : oid) (rules : option (list rarg)) (d : dict) : dict :=
  match rules with
  | None => ddel Nat.eqb c d
  | Some l => dset Nat.eqb c l d
  end.

(** Coordinates.py 406-485: the dictionary to which the attribute refers is changed. *)
Definition d_add (self : oid) (coords : pyval) (rules : option (list rarg)) (s : dworld)
  : res unit * dworld :=
  match d_run (add_coord_transformation self coords rules) s with
  | (Ok _, s') =>
    match dget Nat.eqb self (d_ref s), coords with
    | Some d, VObj c =>
      (Ok tt, mkD (d_w s') (set_nth d (dict_change c rules (dict_of s d)) (d_dicts s)) (d_ref s))
    | _, _ => (Ok tt, s')
    end
  | r => r
  end.

End AliasM.
