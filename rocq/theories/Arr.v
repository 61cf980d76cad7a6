(** SymPy's dense N-dimensional arrays (sympy.tensor.array, version 1.10, the version
    pinned in /repo/requirements.txt): a shape and a flat row-major list of entries.
    Only the functions PyOGRe calls are modelled.  Definitions only. *)
From Verif Require Export Alg.

Section Arr.
Context {A : AlgOps}.

Record arr := mkArr { shape : list nat; data : list K }.

Definition rank (a : arr) : nat := length (shape a).

Fixpoint prodn (sh : list nat) : nat :=
  match sh with [] => 1 | d :: sh' => d * prodn sh' end.

(** NDimArray._parse_index: row-major position of an index tuple. *)
Fixpoint offset (sh idx : list nat) : nat :=
  match sh, idx with
  | _ :: sh', i :: idx' => i * prodn sh' + offset sh' idx'
  | _, _ => 0
  end.

(** The range check of NDimArray._parse_index ("out of border", "Wrong number of array
    axes"). *)
Fixpoint inb (sh idx : list nat) : bool :=
  match sh, idx with
  | [], [] => true
  | d :: sh', i :: idx' => (i <? d) && inb sh' idx'
  | _, _ => false
  end.

(** Entry at an index tuple that is in range. *)
Definition aget (a : arr) (idx : list nat) : K := nth (offset (shape a) idx) (data a) k0.

(** a[idx] with the range check: ValueError when out of range. *)
Definition aget_chk (a : arr) (idx : list nat) : res K :=
  if inb (shape a) idx then Ok (aget a idx) else Err EValueError.

(** All index tuples of a shape, in row-major order. *)
Fixpoint all_idx (sh : list nat) : list (list nat) :=
  match sh with
  | [] => [[]]
  | d :: sh' => flat_map (fun i => map (cons i) (all_idx sh')) (seq 0 d)
  end.

(** The array of a given shape with entries given by a function. *)
Definition tab (sh : list nat) (f : list nat -> K) : arr := mkArr sh (map f (all_idx sh)).

(** Well-formed: as many entries as the shape says (NDimArray always satisfies this). *)
Definition awf (a : arr) : Prop := length (data a) = prodn (shape a).

(** Every axis has length n. *)
Definition cubic (n : nat) (a : arr) : Prop := awf a /\ shape a = repeat n (rank a).

(** Mathematical equality of arrays. *)
Definition aeq (a b : arr) : Prop :=
  shape a = shape b /\ forall idx, inb (shape a) idx = true -> keq (aget a idx) (aget b idx).

(** Elementwise application: NDimArray.applyfunc, .subs, .diff, sympy.simplify on arrays. *)
Definition amap (f : K -> K) (a : arr) : arr := mkArr (shape a) (map f (data a)).

Fixpoint zipadd (l l' : list K) : list K :=
  match l, l' with
  | x :: l1, y :: l1' => kadd x y :: zipadd l1 l1'
  | _, _ => []
  end.

Fixpoint shape_eqb (s s' : list nat) : bool :=
  match s, s' with
  | [], [] => true
  | x :: s1, y :: s1' => (x =? y) && shape_eqb s1 s1'
  | _, _ => false
  end.

(** NDimArray.__add__: ValueError on a shape mismatch. *)
Definition aadd (a b : arr) : res arr :=
  if shape_eqb (shape a) (shape b) then Ok (mkArr (shape a) (zipadd (data a) (data b)))
  else Err EValueError.

(** sympy.tensorproduct of two arrays; a scalar operand is an array of rank 0. *)
Definition tprod (a b : arr) : arr :=
  mkArr (shape a ++ shape b) (flat_map (fun x => map (kmul x) (data b)) (data a)).

(** sympy.permutedims(a, p): axis k of the result is axis p[k] of a.  SymPy raises
    (ValueError) unless p is a permutation of all axes. *)
Definition is_perm (p : list nat) (r : nat) : bool :=
  (length p =? r) && forallb (fun i => existsb (Nat.eqb i) p) (seq 0 r).

Definition unperm (p idx : list nat) : list nat :=
  map (fun k => match index_of Nat.eqb k p with Some j => nth j idx 0 | None => 0 end)
      (seq 0 (length p)).

Definition permutedims (a : arr) (p : list nat) : res arr :=
  if is_perm p (rank a)
  then Ok (tab (map (fun k => nth k (shape a) 0) p) (fun idx => aget a (unperm p idx)))
  else Err EValueError.

(** a[s0, s1, ...] where each s is an integer (Some i) or the full slice (None). *)
Fixpoint slice_ok (sh : list nat) (s : list (option nat)) : bool :=
  match sh, s with
  | [], [] => true
  | d :: sh', Some i :: s' => (i <? d) && slice_ok sh' s'
  | _ :: sh', None :: s' => slice_ok sh' s'
  | _, _ => false
  end.

Fixpoint slice_shape (sh : list nat) (s : list (option nat)) : list nat :=
  match sh, s with
  | d :: sh', None :: s' => d :: slice_shape sh' s'
  | _ :: sh', Some _ :: s' => slice_shape sh' s'
  | _, _ => []
  end.

Fixpoint slice_idx (s : list (option nat)) (idx : list nat) : list nat :=
  match s with
  | [] => []
  | Some i :: s' => i :: slice_idx s' idx
  | None :: s' => match idx with
                  | [] => 0 :: slice_idx s' []
                  | i :: idx' => i :: slice_idx s' idx'
                  end
  end.

(** Out of range integers raise ValueError in SymPy. *)
Definition aslice (a : arr) (s : list (option nat)) : res arr :=
  if slice_ok (shape a) s
  then Ok (tab (slice_shape (shape a) s) (fun idx => aget a (slice_idx s idx)))
  else Err EValueError.

(** a[idx] = x on a mutable array; ValueError when out of range. *)
Definition aset (a : arr) (idx : list nat) (x : K) : res arr :=
  if inb (shape a) idx
  then Ok (mkArr (shape a) (set_nth (offset (shape a) idx) x (data a)))
  else Err EValueError.

(** sympy.tensorcontraction(a, (i1,j1), (i2,j2), ...): the two axes of each pair run
    together and are summed; the remaining axes keep their order.  SymPy raises ValueError
    if an axis is used twice or the two axes of a pair differ in length.  Every call in
    PyOGRe uses pairs. *)
Definition pair_axes (ps : list (nat * nat)) : list nat :=
  flat_map (fun p => [fst p; snd p]) ps.

Definition free_axes (r : nat) (ps : list (nat * nat)) : list nat :=
  filter (fun k => negb (existsb (Nat.eqb k) (pair_axes ps))) (seq 0 r).

(** Full index: position q of [ps] supplies the value ks[q] to both its axes, the free
    axes take the entries of idx in order. *)
Definition find_pair (k : nat) (ps : list (nat * nat)) : option nat :=
  find_index (fun p => (k =? fst p) || (k =? snd p)) ps.

Fixpoint fill (axes : list nat) (ps : list (nat * nat)) (ks idx : list nat) : list nat :=
  match axes with
  | [] => []
  | k :: axes' =>
      match find_pair k ps with
      | Some q => nth q ks 0 :: fill axes' ps ks idx
      | None => match idx with
                | [] => 0 :: fill axes' ps ks []
                | i :: idx' => i :: fill axes' ps ks idx'
                end
      end
  end.

Fixpoint nodupb (l : list nat) : bool :=
  match l with
  | [] => true
  | x :: l' => negb (existsb (Nat.eqb x) l') && nodupb l'
  end.

Definition tcontract_ok (sh : list nat) (ps : list (nat * nat)) : bool :=
  nodupb (pair_axes ps)
  && forallb (fun p => (fst p <? length sh) && (snd p <? length sh)
                       && (nth (fst p) sh 0 =? nth (snd p) sh 0)) ps.

Definition tcontract (a : arr) (ps : list (nat * nat)) : res arr :=
  if tcontract_ok (shape a) ps
  then Ok (tab (map (fun k => nth k (shape a) 0) (free_axes (rank a) ps))
               (fun idx => lsum (all_idx (map (fun p => nth (fst p) (shape a) 0) ps))
                                (fun ks => aget a (fill (seq 0 (rank a)) ps ks idx))))
  else Err EValueError.

(** sympy.Array(sympy.eye(n)). *)
Definition eye (n : nat) : arr :=
  tab [n; n] (fun idx => match idx with [i; j] => kdelta i j | _ => k0 end).

(** sympy.Array(sympy.Matrix(a).inv()) for a square array of rank 2; a singular matrix is
    an error raised by SymPy. *)
Definition ainv (a : arr) : res arr :=
  match shape a with
  | [n; m] => if n =? m then
                match minv n (data a) with
                | Some d => Ok (mkArr [n; n] d)
                | None => Err ESymPy
                end
              else Err ESymPy
  | _ => Err ESymPy
  end.

End Arr.
