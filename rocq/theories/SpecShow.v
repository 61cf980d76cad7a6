(** Vocabulary of the statements about show, list and get_components.  Definitions only. *)
From Coq Require Import String Ascii.
From Verif Require Export ShowM SpecCurve SpecScalar.
Import List.

Section SpecShow.
Context {A : AlgOps}.

(** The arguments function and replace on one component. *)
Definition applied (f : option (K -> K)) (e : K) : K := match f with None => e | Some f => f e end.
Definition substituted (r : option (list (string * K))) (e : K) : K :=
  match r with None => e | Some r => subs_seq r e end.
Definition plain_argument (r : option (list (string * K))) : Prop :=
  match r with None => True | Some r => plain_replacement r end.

(** What a user asks for, and what they get before function and replace: [t] is an object with
    the attributes [o] after the call, [a] its components in the coordinates [c]. *)
Definition obtained (w : world) (t : oid) (coords : option oid) (idx : option (list Z)) (c : oid)
  (n : nat) (a : arr) (w1 : world) (o : obj) : Prop :=
  (exists o0, obj_of w t = Some o0 /\ asked_coords o0 coords c) /\
  get_components t coords idx w = (Ok a, w1) /\ obj_of w1 t = Some o /\
  1 <= n /\ cubic n a /\ rank a = o_rank o.

(** The array [b] as it is shown for the components [a]: vectors are columns. *)
Definition shown_as (a b : arr) : Prop :=
  awf b /\ (rank a <> 1 -> b = a) /\
  forall n, shape a = [n] -> shape b = [n; 1] /\ forall i, i < n -> aget b [i; 0] = aget a [i].

(** The groups [g] list the components of [a]: the positions with a label are those whose
    component SymPy does not recognise as zero, and the labels have the values shown.  A scalar is
    shown in any case. *)
Definition lists (a : arr) (g : groups) : Prop :=
  (rank a = 0 -> g = [(aget a [], [(true, [])])]) /\
  (rank a <> 0 ->
   (forall pos, (exists key es s, In (key, es) g /\ In (s, pos) es) <->
      inb (shape a) pos = true /\ kisz (aget a pos) = false) /\
   (forall key es s pos, In (key, es) g -> In (s, pos) es ->
      keq (aget a pos) (if s then key else kopp key))).
(** Each position with a component other than zero has one label; the values shown are not zero
    and different up to sign. *)
Definition lists_once (a : arr) (g : groups) : Prop :=
  rank a <> 0 ->
  (forall pos, inb (shape a) pos = true ->
     (keq (aget a pos) k0 -> ~ exists key es s, In (key, es) g /\ In (s, pos) es) /\
     (~ keq (aget a pos) k0 ->
      count_occ (list_eq_dec Nat.eq_dec) (flat_map (fun ke => map snd (snd ke)) g) pos = 1)) /\
  (forall key es, In (key, es) g -> ~ keq key k0) /\
  ForallOrdPairs (fun x y => ~ keq x y /\ ~ keq x (kopp y)) (map fst g).
Definition exact_zero_test : Prop := forall x : K, keq x k0 -> kisz x = true.

(** The default coordinates of [o] are [n] coordinates. *)
Definition n_coordinates (w : world) (o : obj) (n : nat) : Prop :=
  exists c oc, o_coords o = Some c /\ obj_of w c = Some oc /\ length (o_syms oc) = n.

(** Two strings that differ only in the case of their letters, as words of small letters. *)
Definition capital (c d : ascii) : Prop :=
  c = d \/ exists k, k < 26 /\ nat_of_ascii c = 65 + k /\ nat_of_ascii d = 97 + k.
Fixpoint spelled (s word : string) : Prop :=
  match s, word with
  | EmptyString, EmptyString => True
  | String c s', String d w' => capital c d /\ spelled s' w'
  | _, _ => False
  end.

(** A component of a curve: function, replace, and the parameter. *)
Definition on_curve (time : bool) (p : string) (xs : list string) (r : option (list (string * K))) (e : K) : K :=
  match r with
  | None => e
  | Some r => let e := replaced p xs r e in if time then at_parameter p e else e
  end.
Definition curve_argument (p : string) (xs : list string) (r : option (list (string * K))) : Prop :=
  match r with None => True | Some r => good_replacement p xs r end.

End SpecShow.
