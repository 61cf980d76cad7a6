(** Specification vocabulary for covariant derivatives.  Definitions only. *)
From Coq Require Import Ascii.
From Verif Require Export SpecCurv.

Section Covariant.
Context {A : AlgOps}.

(** [idx] with the entry at the position [j] replaced by [d], and with [d] put in before the
    position [j]. *)
Definition replaced (j d : nat) (idx : list nat) : list nat := firstn j idx ++ d :: skipn (S j) idx.
Definition inserted (j d : nat) (idx : list nat) : list nat := firstn j idx ++ d :: skipn j idx.

(** The covariant derivative nabla_k T of a tensor of any rank, with the configuration [i], for
    the connection [G]: one term for every index, +Gamma^s_kd T^d for an upper index s and
    -Gamma^d_ks T_d for a lower index s. *)
Definition covariant_of (n : nat) (x : nat -> string) (G : nat -> nat -> nat -> K) (i : list Z)
  (T : list nat -> K) (k : nat) (idx : list nat) : K :=
  kadd (kdiff (x k) (T idx))
    (nsum (length i) (fun j =>
       if (nth j i 0 =? 1)%Z then nsum n (fun d => kmul (G (nth j idx 0) k d) (T (replaced j d idx)))
       else kopp (nsum n (fun d => kmul (G d k (nth j idx 0)) (T (replaced j d idx)))))).

(** The covariant divergence over the index [q]: nabla_k T^..k.. for an upper index,
    g^kl nabla_k T_..l.. for a lower one. *)
Definition divergence_of (n : nat) (x : nat -> string) (G : nat -> nat -> nat -> K) (gi : nat -> nat -> K)
  (i : list Z) (T : list nat -> K) (q : nat) (idx : list nat) : K :=
  if (nth q i 0 =? 1)%Z then nsum n (fun k => covariant_of n x G i T k (inserted q k idx))
  else nsum n (fun k => nsum n (fun l => kmul (gi k l) (covariant_of n x G i T k (inserted q l idx)))).

(** A lower-case letter of the Latin alphabet. *)
Definition letter (s : string) : Prop :=
  exists ch, s = String ch EmptyString /\ 97 <= nat_of_ascii ch <= 122.

(** At least two letters are not used as symbols. *)
Definition two_letters_free (l : list string) : Prop :=
  exists x y, letter x /\ letter y /\ x <> y /\ ~ In x l /\ ~ In y l.

(** At least two of the index letters, which are different ones, are not used as symbols. *)
Definition free_letters (letters l : list string) : Prop :=
  NoDup letters /\ exists x y, In x letters /\ In y letters /\ x <> y /\ ~ In x l /\ ~ In y l.

(** The formula [p] succeeds with a new temporary tensor that has the symbols [s], the
    configuration [i] and the components [f]; it registers nothing but temporary tensors and
    tensors with the [names], and the session stays one to which the same applies. *)
Definition yields (n : nat) (xs : list string) (g gi : nat -> nat -> K) (p : M calc) (m c : oid)
  (name : string) (names : list string) (s : list string) (i : list Z) (f : list nat -> K) (w : world) : Prop :=
  exists z w' a, p w = (Ok z, w') /\ result_is w' z s m c i a /\ holds n (length i) a f /\
    only_adds ("TEMP"%string :: names) w w' /\
    metric_session w' n m c name xs g gi /\ known_results n xs g gi w' m c name.
End Covariant.
