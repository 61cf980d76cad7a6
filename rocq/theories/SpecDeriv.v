(** Specification vocabulary for repeated covariant derivatives.  Definitions only. *)
From Verif Require Export SpecCov.

(** The names under which the curvature tensors of the metric [name] are registered. *)
Definition curvature_names (name : string) : list string :=
  map (fun s => (name ++ s)%string)
    [" Christoffel"; " Riemann"; " Ricci Tensor"; " Ricci Scalar"; " Einstein"; " Weyl Tensor"]%string.

Section Derivatives.
Context {A : AlgOps}.

(** The components of nabla_k1 ... nabla_kr T, the symbol of the last derivative in front. *)
Fixpoint iterated (n : nat) (x : nat -> string) (G : nat -> nat -> nat -> K) (i : list Z)
  (T : list nat -> K) (r : nat) : list nat -> K :=
  match r with
  | O => T
  | S r' => fun idx => covariant_of n x G (repeat (-1)%Z r' ++ i) (iterated n x G i T r') (nth 0 idx 0) (tl idx)
  end.

(** The terms with the curvature in the commutator of two covariant derivatives: one term for
    every index, +R^s_dab T^d for an upper index s and -R^d_sab T_d for a lower index s. *)
Definition curvature_terms (n : nat) (R : nat -> nat -> nat -> nat -> K) (i : list Z)
  (T : list nat -> K) (a b : nat) (idx : list nat) : K :=
  nsum (length i) (fun j =>
    if (nth j i 0 =? 1)%Z then nsum n (fun d => kmul (R (nth j idx 0) d a b) (T (replaced j d idx)))
    else kopp (nsum n (fun d => kmul (R d (nth j idx 0) a b) (T (replaced j d idx))))).

(** The outer product; [S] takes the first [r] indices. *)
Definition outer (r : nat) (S T : list nat -> K) (idx : list nat) : K :=
  kmul (S (firstn r idx)) (T (skipn r idx)).

(** CovariantD("a") @ T("bc...") *)
Definition derivative (t : oid) (a : string) (syms : list string) : M calc :=
  let! d := CovariantD [a] in let! x := calc_call t syms in matmul d x.

(** One derivative after the other, each of them made a tensor with Calc: the derivative with
    the symbol [a] of the tensor with the symbols [syms] gets the name [nm]. *)
Fixpoint derivatives (steps : list (string * string * list string)) (t : oid) : M oid :=
  match steps with
  | [] => mret t
  | (nm, a, syms) :: l =>
    let! z := derivative t a syms in
    let! t' := run_calc z nm "" [] in
    derivatives l t'
  end.

(** Every step has a name of its own, one symbol for every index and a new symbol for the
    derivative; [r] is the number of indices before the first step. *)
Fixpoint fit (name : string) (r : nat) (steps : list (string * string * list string)) : Prop :=
  match steps with
  | [] => True
  | (nm, a, syms) :: l =>
    nm <> "TEMP"%string /\ ~ In nm (curvature_names name) /\ NoDup (a :: syms) /\ length syms = r /\
    two_letters_free (a :: syms) /\ fit name (S r) l
  end.

(** The program [p] succeeds with a tensor that has the configuration [i] and the components
    [f]; it registers nothing but temporary tensors and tensors with the [names], and the session
    stays one to which the same applies. *)
Definition makes (n : nat) (xs : list string) (g gi : nat -> nat -> K) (p : M oid) (m c : oid)
  (name : string) (names : list string) (i : list Z) (f : list nat -> K) (w : world) : Prop :=
  exists t w', p w = (Ok t, w') /\ ~ named w' "TEMP" t /\ tensor_value w' n m c t i f /\
    only_adds ("TEMP"%string :: names) w w' /\
    metric_session w' n m c name xs g gi /\ known_results n xs g gi w' m c name.

End Derivatives.
