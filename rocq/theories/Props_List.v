(** Properties of list(): C54 - C56. *)
From Coq Require Import QArith Qcanon.
From Verif Require Import Base Alg Arr Spec ListM List_P InstNum Witness_List_P.
Local Open Scope nat_scope.

Section List.
Context {A : AlgOps} {L : AlgLaws A}.

(** C54, ranks from 1 on.  The test [== 0] of SymPy is supposed to recognise every expression
    that is zero; in this sense the groups are those of the test. *)
Theorem C54_every_component_once n r a : cubic n a -> r = rank a -> r <> 0 -> (forall x, keq x k0 -> kisz x = true) ->
  (forall pos, inb (shape a) pos = true ->
     (keq (aget a pos) k0 -> ~ exists key es s, In (key, es) (list_groups n r a) /\ In (s, pos) es) /\
     (~ keq (aget a pos) k0 -> count_occ (list_eq_dec Nat.eq_dec) (flat_map (fun ke => map snd (snd ke)) (list_groups n r a)) pos = 1)) /\
  (forall key es s pos, In (key, es) (list_groups n r a) -> In (s, pos) es ->
     inb (shape a) pos = true /\ keq (aget a pos) (if s then key else kopp key)) /\
  (forall key es, In (key, es) (list_groups n r a) -> ~ keq key k0) /\
  ForallOrdPairs (fun x y => ~ keq x y /\ ~ keq x (kopp y)) (map fst (list_groups n r a)).
Proof. exact (groups_all n r a). Qed.
(** Whatever the test misses: every label has the value shown, and the positions shown are those
    whose component the test does not recognise as zero. *)
Theorem C54_labels_are_right n r a key es s pos : r <> 0 -> In (key, es) (list_groups n r a) -> In (s, pos) es ->
  keq (aget a pos) (if s then key else kopp key) /\ kisz (aget a pos) = false.
Proof. exact (groups_sound n r a key es s pos). Qed.
Theorem C54_labels_are_complete n r a pos : r <> 0 ->
  ((exists key es s, In (key, es) (list_groups n r a) /\ In (s, pos) es) <-> In pos (tuples n r) /\ kisz (aget a pos) = false).
Proof. exact (groups_labels n r a pos). Qed.

(** C55 *)
Theorem C55_lines num n r a : 0 < num -> exists ls, list_latex num (list_groups n r a) = Ok ls /\
  Forall2 (fun ke kl => fst kl = fst ke /\ concat (map fst (snd kl)) = snd ke /\
    exists init last, snd kl = map (fun l => (l, false)) init ++ [(last, true)] /\
      Forall (fun l => length l = num) init /\ 0 < length last <= num) (list_groups n r a) ls.
Proof. exact (latex_ok num n r a). Qed.

(** C56, for every tensor with a non-zero component *)
Theorem C56_zero_per_line n r a pos : r <> 0 -> In pos (tuples n r) -> kisz (aget a pos) = false ->
  set_list_per_line 0 = Ok 0 /\ list_latex 0 (list_groups n r a) = Err EZeroDivision.
Proof. exact (zero_per_line n r a pos). Qed.
End List.
Print Assumptions C54_every_component_once.
Print Assumptions C54_labels_are_right.
Print Assumptions C54_labels_are_complete.
Print Assumptions C55_lines.
Print Assumptions C56_zero_per_line.

(** C54.  The property is false for scalars: a scalar that is 0 is shown. *)
Theorem C54_zero_scalar_refuted :
  exists (n : nat) (a : @arr NumOps) key es s,
  cubic n a /\ keq (aget a []) k0 /\ In (key, es) (list_groups n (rank a) a) /\ In (s, []) es.
Proof. exact zero_scalar_witness. Qed.
Print Assumptions C54_zero_scalar_refuted.

(** C56.  The property is false: set_list_per_line accepts 0, with which list() fails. *)
Theorem C56_zero_per_line_refuted :
  exists (z : Z) (num n : nat) (a : @arr NumOps) pos,
  set_list_per_line z = Ok num /\ cubic n a /\ inb (shape a) pos = true /\ ~ keq (aget a pos) k0 /\
  list_latex num (list_groups n (rank a) a) = Err EZeroDivision.
Proof. exact zero_per_line_witness. Qed.
Print Assumptions C56_zero_per_line_refuted.

Example list_sample : let a := @mkArr NumOps [2; 2] [1%Qc; 0%Qc; (- (1))%Qc; 1%Qc] in
  cubic 2 a /\ rank a <> 0 /\ (forall x : @K NumOps, keq x k0 -> kisz x = true) /\
  list_groups 2 2 a = [(1%Qc, [(true, [0; 0]); (false, [1; 0]); (true, [1; 1])])] /\
  list_latex 2 (list_groups 2 2 a) = Ok [(1%Qc, [([(true, [0; 0]); (false, [1; 0])], false); ([(true, [1; 1])], true)])].
Proof. exact list_sample_ok. Qed.
