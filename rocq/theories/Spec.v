(** Specification vocabulary used in the property statements.  Nothing here is used by the
    model files.  Definitions only. *)
From Verif Require Export Arr.

(** The positions below r that are not in pos, in increasing order. *)
Definition free_pos (r : nat) (pos : list nat) : list nat :=
  filter (fun q => negb (existsb (Nat.eqb q) pos)) (seq 0 r).

(** The index tuple of length r that has ks[j] at position pos[j] and the entries of f, in
    order, at the remaining positions. *)
Definition place (r : nat) (pos ks f : list nat) : list nat :=
  map (fun q => match index_of Nat.eqb q pos with
                | Some j => nth j ks 0
                | None => nth (length (free_pos q pos)) f 0
                end) (seq 0 r).

(** The pairs of positions that contract has to accept for arrays of ranks r1 and r2. *)
Definition valid_pairs (r1 r2 : nat) (ps : list (Z * Z)) : Prop :=
  Forall (fun p => (0 <= fst p < Z.of_nat r1)%Z /\ (0 <= snd p < Z.of_nat r2)%Z) ps
  /\ NoDup (map fst ps) /\ NoDup (map snd ps).

(** All components of a are in range exactly at positions below n. *)
Definition in_range (n r : nat) (idx : list nat) : Prop :=
  length idx = r /\ Forall (fun i => i < n) idx.

Section SpecAct.
Context {A : AlgOps}.

(** Product of a list of components. *)
Fixpoint kprod (l : list K) : K :=
  match l with [] => k1 | x :: l' => kmul x (kprod l') end.

(** One matrix per index: the value at position idx of the array obtained from f by
    contracting index q with the matrix Ms[q], every index staying at its own position:
    the sum over all k_0, ..., k_(r-1) below n of
    Ms[0](idx_0,k_0) * ... * Ms[r-1](idx_(r-1),k_(r-1)) * f(k_0, ..., k_(r-1)). *)
Definition act (n : nat) (Ms : list (nat -> nat -> K)) (f : list nat -> K) (idx : list nat) : K :=
  lsum (tuples n (length Ms))
       (fun ks => kmul (kprod (map (fun mik => fst mik (fst (snd mik)) (snd (snd mik)))
                                   (combine Ms (combine idx ks))))
                       (f ks)).

(** Entries of a matrix. *)
Definition mfun (m : arr) : nat -> nat -> K := fun i j => aget m [i; j].

(** Square matrix of dimension n. *)
Definition square (n : nat) (m : arr) : Prop := awf m /\ shape m = [n; n].

(** Two-sided inverse matrices of dimension n. *)
Definition inverse_fun (n : nat) (f g : nat -> nat -> K) : Prop :=
  (forall i j, i < n -> j < n -> keq (nsum n (fun k => kmul (f i k) (g k j))) (kdelta i j)) /\
  (forall i j, i < n -> j < n -> keq (nsum n (fun k => kmul (g i k) (f k j))) (kdelta i j)).

(** The matrix that takes an index from configuration s to configuration t: the inverse
    metric raises, the metric lowers, equal configurations need no change. *)
Definition conv (g ginv : nat -> nat -> K) (s t : Z) : nat -> nat -> K :=
  if (s =? t)%Z then kdelta else if (t =? 1)%Z then ginv else g.

(** A valid configuration: every entry is +1 or -1. *)
Definition valid_cfg (c : list Z) : Prop := Forall (fun z => z = 1%Z \/ z = (-1)%Z) c.

(** The Jacobian factor of an index: new index first.  [J] has the old coordinate as row
    and the new coordinate as column, [Jinv] is its inverse. *)
Definition jac (J Jinv : nat -> nat -> K) (z : Z) : nat -> nat -> K :=
  if (z =? 1)%Z then Jinv else fun i k => J k i.

(** Substitution of rules one after the other. *)
Definition subs_seq (rules : list (string * K)) (x : K) : K :=
  fold_left (fun y r => ksub1 (fst r) (snd r) y) rules x.

(** Simultaneous substitution: first every left side is renamed to a fresh symbol, then
    every fresh symbol is replaced by the right side. *)
Definition subs_sim (rules : list (string * K)) (fresh : list string) (x : K) : K :=
  subs_seq (combine fresh (map snd rules))
    (subs_seq (combine (map fst rules) (map ksym fresh)) x).

(** Fresh symbols for a list of rules and an expression: one for each rule, all different,
    no left side, and not contained in a right side or in the expression. *)
Definition fresh_for (rules : list (string * K)) (fresh : list string) (x : K) : Prop :=
  length fresh = length rules /\ NoDup fresh /\
  forall y, In y fresh -> ~ In y (map fst rules) /\ (forall q, keq (ksub1 y q x) x) /\
    Forall (fun r => forall q, keq (ksub1 y q (snd r)) (snd r)) rules.

(** No right side mentions the left side of a later rule. *)
Fixpoint no_later (rules : list (string * K)) : Prop :=
  match rules with
  | [] => True
  | r :: rs => Forall (fun r' => forall q, keq (ksub1 (fst r') q (snd r)) (snd r)) rs /\ no_later rs
  end.

(** Symmetric matrix of dimension n. *)
Definition symmetric_fun (n : nat) (f : nat -> nat -> K) : Prop :=
  forall i j, i < n -> j < n -> keq (f i j) (f j i).

End SpecAct.

Section SpecChristoffel.
Context {A : AlgOps}.

(** Christoffel symbols of a metric g with inverse gi in the coordinates x_0, ..., x_(n-1):
    Gamma^i_jk = sum_l 1/2 g^il (d_j g_lk + d_k g_jl - d_l g_jk). *)
Definition christoffel_of (n : nat) (x : nat -> string) (g gi : nat -> nat -> K) (i j k : nat) : K :=
  nsum n (fun l => kmul (kinvn 2) (kmul (gi i l)
    (ksub (kadd (kdiff (x j) (g l k)) (kdiff (x k) (g j l))) (kdiff (x l) (g j k))))).

(** An expression that does not contain a symbol: it has derivative zero and substituting
    the symbol does not change it. *)
Definition free_of (s : string) (e : K) : Prop :=
  keq (kdiff s e) k0 /\ forall q, keq (ksub1 s q e) e.

End SpecChristoffel.
