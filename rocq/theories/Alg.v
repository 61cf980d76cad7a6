(** The component algebra: the operations PyOGRe uses on SymPy expressions, and the laws
    that the theorems assume about them.  See DESIGN.md, section 2. *)
From Coq Require Export Setoid Morphisms Ring_theory Ring.
From Verif Require Export Base.

(** Operations only; the model functions depend on nothing else.  [keq] is mathematical
    equality, [simp] is sympy.simplify, [kisz] the structural test [e == 0],
    [kdiff s] is sympy.diff by the symbol s, [ksub1 s r e] is [e.subs({s: r})],
    [kinvn n] is the rational 1/n, [minv n m] is the inverse of the n x n matrix given by
    its row-major entries, None if SymPy rejects it as not invertible, [mdet0 n m] is the
    test [m.det() == 0], [kclean e] is sympy.cancel(e) without a factor 1/q (the clean-up of
    geodesic equations, Geodesic.py 201-208). *)
Class AlgOps := {
  K : Type;
  keq : K -> K -> Prop;
  k0 : K;
  k1 : K;
  kadd : K -> K -> K;
  kmul : K -> K -> K;
  ksub : K -> K -> K;
  kopp : K -> K;
  kinvn : nat -> K;
  simp : K -> K;
  kisz : K -> bool;
  ksym : string -> K;
  kdiff : string -> K -> K;
  ksub1 : string -> K -> K -> K;
  minv : nat -> list K -> option (list K);
  mdet0 : nat -> list K -> bool;
  kclean : K -> K
}.

Declare Scope K_scope.
Delimit Scope K_scope with K.
Infix "==" := keq (at level 70, no associativity) : K_scope.
Infix "+" := kadd : K_scope.
Infix "-" := ksub : K_scope.
Infix "*" := kmul : K_scope.
Notation "- x" := (kopp x) : K_scope.

(** The integer n as a component. *)
Fixpoint knat {A : AlgOps} (n : nat) : K :=
  match n with O => k0 | S n' => kadd k1 (knat n') end.

(** Finite sums over a list. *)
Fixpoint lsum {A : AlgOps} {X : Type} (l : list X) (f : X -> K) : K :=
  match l with
  | [] => k0
  | x :: l' => kadd (f x) (lsum l' f)
  end.

(** Sum over 0 <= i < n. *)
Definition nsum {A : AlgOps} (n : nat) (f : nat -> K) : K := lsum (seq 0 n) f.

(** Kronecker delta. *)
Definition kdelta {A : AlgOps} (i j : nat) : K := if Nat.eqb i j then k1 else k0.

Class AlgLaws (A : AlgOps) : Prop := {
  keq_equiv :> Equivalence keq;
  kadd_proper :> Proper (keq ==> keq ==> keq) kadd;
  kmul_proper :> Proper (keq ==> keq ==> keq) kmul;
  kopp_proper :> Proper (keq ==> keq) kopp;
  kring : ring_theory k0 k1 kadd kmul ksub kopp keq;
  simp_ok : forall x, keq (simp x) x;
  kisz_ok : forall x, kisz x = true -> keq x k0;
  kinvn_ok : forall n, n <> O -> keq (kmul (knat n) (kinvn n)) k1
}.

Class DiffLaws (A : AlgOps) : Prop := {
  kdiff_proper :> forall s, Proper (keq ==> keq) (kdiff s);
  kdiff_add : forall s x y, keq (kdiff s (kadd x y)) (kadd (kdiff s x) (kdiff s y));
  kdiff_mul : forall s x y,
      keq (kdiff s (kmul x y)) (kadd (kmul (kdiff s x) y) (kmul x (kdiff s y)));
  kdiff_comm : forall s t x, keq (kdiff s (kdiff t x)) (kdiff t (kdiff s x))
}.

(** Row-major matrix entry. *)
Definition mat_at {A : AlgOps} (n : nat) (m : list K) (i j : nat) : K :=
  nth (Nat.add (Nat.mul i n) j) m k0.

(** A returned inverse has the right size and is a two-sided inverse. *)
Class InvLaws (A : AlgOps) : Prop := {
  minv_len : forall n m r, length m = (n * n)%nat -> minv n m = Some r -> length r = (n * n)%nat;
  minv_l : forall n m r, length m = (n * n)%nat -> minv n m = Some r ->
      forall i j, (i < n)%nat -> (j < n)%nat ->
      keq (nsum n (fun k => kmul (mat_at n r i k) (mat_at n m k j))) (kdelta i j);
  minv_r : forall n m r, length m = (n * n)%nat -> minv n m = Some r ->
      forall i j, (i < n)%nat -> (j < n)%nat ->
      keq (nsum n (fun k => kmul (mat_at n m i k) (mat_at n r k j))) (kdelta i j)
}.

(** SymPy inverts every square matrix whose determinant it does not find to be 0. *)
Class DetLaws (A : AlgOps) : Prop := {
  mdet0_minv : forall n m, length m = (n * n)%nat -> mdet0 n m = false ->
      exists r, minv n m = Some r
}.

(** The clean-up of an equation multiplies it by an invertible factor. *)
Class CleanLaws (A : AlgOps) : Prop := {
  kclean_ok : forall e, exists u v, keq (kmul u v) k1 /\ keq (kclean e) (kmul u e)
}.

(** Substitution of one symbol: e.subs({s: r}).  It respects equality, is a ring
    homomorphism fixing the other symbols, obeys the chain rule, two substitutions can be
    exchanged when the first replacement does not contain the second symbol, and a symbol
    may be renamed to one that does not occur before it is replaced. *)
Class SubsLaws (A : AlgOps) : Prop := {
  ksub1_proper :> forall s, Proper (keq ==> keq ==> keq) (ksub1 s);
  ksub1_add : forall s r x y, keq (ksub1 s r (kadd x y)) (kadd (ksub1 s r x) (ksub1 s r y));
  ksub1_mul : forall s r x y, keq (ksub1 s r (kmul x y)) (kmul (ksub1 s r x) (ksub1 s r y));
  ksub1_1 : forall s r, keq (ksub1 s r k1) k1;
  ksub1_same : forall s r, keq (ksub1 s r (ksym s)) r;
  ksub1_other : forall s t r, s <> t -> keq (ksub1 s r (ksym t)) (ksym t);
  ksub1_chain : forall s t r x,
      keq (kdiff t (ksub1 s r x))
          (kadd (if String.eqb s t then k0 else ksub1 s r (kdiff t x))
                (kmul (ksub1 s r (kdiff s x)) (kdiff t r)));
  ksub1_swap : forall s t r r' x, s <> t -> (forall q, keq (ksub1 t q r) r) ->
      keq (ksub1 s r (ksub1 t r' x)) (ksub1 t (ksub1 s r r') (ksub1 s r x));
  ksub1_rename : forall s t r x, s <> t -> keq (ksub1 t k0 x) x ->
      keq (ksub1 t r (ksub1 s (ksym t) x)) (ksub1 s r x)
}.

(** Derivatives of symbols. *)
Class SymLaws (A : AlgOps) : Prop := {
  kdiff_sym_same : forall s, keq (kdiff s (ksym s)) k1;
  kdiff_sym_other : forall s t, s <> t -> keq (kdiff s (ksym t)) k0
}.
