(** Concrete sessions with dictionaries of callers. *)
From Verif Require Import Alg Arr Arr_P Spec TensorM Inst Ex WorldM SpecWorld ExWorld AliasM SpecAlias Alias_P.
Local Open Scope nat_scope.

Definition ex_sys (name : string) (syms : list string) (i : pyval) (d : option nat) : @step PolyOps :=
  SCoordinates (ex_str name) (VSyms [2] syms) i (ex_str "x") d.
Definition ex_one : @pyval PolyOps := VTuple [1]%Z.

(** x, y (object 0); a dictionary with the way from u, v to x, y; u, v (object 1) and p, q
    (object 2), both with the dictionary. *)
Definition ex_shared : list (@step PolyOps) :=
  [ex_sys "XY" ex_xs ex_one None; SDict [(0, map REq ex_back)];
   ex_sys "UV" ex_ys ex_one (Some 0); ex_sys "PQ" ["p"; "q"]%string ex_one (Some 0)].
Definition ex_shared_s : @dworld PolyOps := snd (run_steps shared_step ex_shared shared_start).
Definition ex_new_rules : list (@rarg PolyOps) := [REq (("u"%string, pv "p") : string * @K PolyOps); RNone].
(** UV.add_coord_transformation(PQ, rules) *)
Definition ex_shared_add : @step PolyOps := SAdd 1 (VObj 2) (Some ex_new_rules).

Definition keys {X} (x : option (list (nat * X))) : option (list nat) := option_map (map fst) x.

Lemma ex_shared_keys :
  keys (transformations ex_shared_s 2) = Some [0] /\
  keys (transformations (snd (shared_step ex_shared_add ex_shared_s)) 2) = Some [0; 2] /\
  fst (shared_step ex_shared_add ex_shared_s) = None.
Proof.
  split; [vm_cast_no_check (eq_refl (Some [0]))|]. split; [vm_cast_no_check (eq_refl (Some [0; 2]))|].
  vm_cast_no_check (@eq_refl (option exn) None).
Qed.

Lemma keys_in {X} (x : option (list (nat * X))) l j : keys x = Some l -> In j l ->
  exists y r, x = Some y /\ In (j, r) y.
Proof.
  intros H Hj. destruct x as [y|]; [|discriminate]. cbn in H. injection H as <-. apply in_map_iff in Hj as [[k r] [E Hr]].
  cbn in E. subst. eauto.
Qed.

Lemma shared_witness : exists (l : list (@step PolyOps)) (self j : oid) coords rules,
  let s := snd (run_steps shared_step l shared_start) in
  let s' := snd (shared_step (SAdd self coords rules) s) in
  fst (shared_step (SAdd self coords rules) s) = None /\ j <> self /\
  transformations s' j <> transformations s j /\
  exists d r, transformations s' j = Some d /\ In (j, r) d.
Proof.
  exists ex_shared, 1, 2, (VObj 2), (Some ex_new_rules). cbv zeta.
  fold ex_shared_s. fold ex_shared_add. destruct ex_shared_keys as (H1 & H2 & H3).
  split; [exact H3|]. split; [discriminate|]. split.
  - intros E. rewrite E, H1 in H2. discriminate H2.
  - destruct (keys_in _ _ 2 H2) as (y & r & Hy & Hr); [right; left; reflexivity|]. eauto.
Qed.

(** Each coordinate system has a dictionary of its own; the second dictionary is changed before
    it is given; there are a metric and a vector, and the transformations change. *)
Definition ex_single : list (@step PolyOps) :=
  [ex_sys "XY" ex_xs ex_one None; SDict [(0, map REq ex_back)]; SDict [];
   ex_sys "UV" ex_ys ex_one (Some 0); SChange 1 [(1, [RNone; RNone]); (0, [])];
   ex_sys "PQ" ["p"; "q"]%string ex_one (Some 1); SAdd 0 (VObj 1) (Some (map REq ex_rules));
   SAdd 2 (VObj 1) None;
   SOp (OpMetric (ex_str "g") (VArr ex_g) (VObj 0) (VTuple [-1; -1]%Z) (ex_str "g"));
   SOp (OpTensor (ex_str "V") (VArr ex_vec) (VObj 3) (VObj 0) (VTuple [1]%Z) (ex_str "V"));
   SAdd 1 (VObj 2) (Some [RNone; RBad]); SOp (OpGet 4 (Some 1) None); SAdd 1 (VObj 2) (Some [RNone; RNone])].

Lemma ex_single_once : given_once [] [] ex_single.
Proof. cbn. repeat split; auto; intros H; repeat destruct H as [H|H]; try discriminate H; exact H. Qed.

Lemma ex_single_outcome :
  fst (run_steps shared_step ex_single shared_start) =
    [None; None; None; None; None; None; None; None; None; None; Some ETypeError; None; None] /\
  map fst (d_ref (snd (run_steps shared_step ex_single shared_start))) = [2; 1] /\
  keys (transformations (snd (run_steps shared_step ex_single shared_start)) 1) = Some [0; 2] /\
  keys (transformations (snd (run_steps shared_step ex_single shared_start)) 2) = Some [0].
Proof.
  split; [vm_cast_no_check (eq_refl [None; None; None; None; None; None; None; None; None; None; Some ETypeError; None; None])|].
  split; [vm_cast_no_check (eq_refl [2; 1])|]. split; [vm_cast_no_check (eq_refl (Some [0; 2]))|].
  vm_cast_no_check (eq_refl (Some [0])).
Qed.

(** An entry of a dictionary of the caller. *)
Lemma entry_in s i c rules d : dget Nat.eqb i (d_ref s) = Some d -> dget Nat.eqb c (@dict_of PolyOps s d) = Some rules ->
  entry_rules s i c rules.
Proof. intros E H. unfold entry_rules. rewrite E. exact H. Qed.

Lemma ex_shared_plain : Forall plain_step (ex_shared ++ [ex_shared_add]) /\
  entry_rules (snd (run_steps shared_step (ex_shared ++ [ex_shared_add]) shared_start)) 2 2 ex_new_rules.
Proof.
  split; [repeat constructor; discriminate|].
  apply (entry_in _ _ _ _ 0); [vm_cast_no_check (eq_refl (Some 0))|vm_cast_no_check (eq_refl (Some ex_new_rules))].
Qed.

(** A rule that is no equation: with indices None, and by a later change of the dictionary. *)
Definition ex_none : list (@step PolyOps) :=
  [ex_sys "XY" ex_xs ex_one None; SDict [(0, [RBad])]; ex_sys "UV" ex_ys VNone (Some 0)].
Definition ex_later : list (@step PolyOps) :=
  [ex_sys "XY" ex_xs ex_one None; SDict [(0, map REq ex_back)]; ex_sys "UV" ex_ys ex_one (Some 0); SChange 0 [(0, [RBad])]].

Lemma none_witness : exists (l : list (@step PolyOps)) i c rules,
  (forall d x, ~ In (SChange d x) l) /\
  entry_rules (snd (run_steps shared_step l shared_start)) i c rules /\ In RBad rules.
Proof.
  exists ex_none, 1, 0, [RBad]. split.
  { intros d x H. cbn in H. repeat destruct H as [H|H]; try discriminate H; exact H. }
  split; [|left; reflexivity].
  apply (entry_in _ _ _ _ 0); [vm_cast_no_check (eq_refl (Some 0))|vm_cast_no_check (eq_refl (Some [@RBad PolyOps]))].
Qed.
Lemma later_witness : exists (l : list (@step PolyOps)) i c rules,
  (forall n x i y d, In (SCoordinates n x i y d) l -> i = VTuple [1]%Z) /\
  entry_rules (snd (run_steps shared_step l shared_start)) i c rules /\ In RBad rules.
Proof.
  exists ex_later, 1, 0, [RBad]. split.
  { intros n x i y d H. cbn in H. repeat destruct H as [H|H]; try discriminate H; try (injection H; intros; subst; reflexivity). destruct H. }
  split; [|left; reflexivity].
  apply (entry_in _ _ _ _ 0); [vm_cast_no_check (eq_refl (Some 0))|vm_cast_no_check (eq_refl (Some [@RBad PolyOps]))].
Qed.

Lemma ex_shared_case : sharing ex_shared_s 1 2 /\ ~ sharing ex_shared_s 0 2 /\
  transformations ex_shared_s 1 <> None /\ transformations ex_shared_s 2 <> None.
Proof.
  assert (H : keys (transformations ex_shared_s 1) = Some [0]) by vm_cast_no_check (eq_refl (Some [0])).
  assert (H0 : dget Nat.eqb 0 (d_ref ex_shared_s) = None) by vm_cast_no_check (@eq_refl (option nat) None).
  destruct ex_shared_keys as (H2 & _).
  split; [exists 0; split; vm_cast_no_check (eq_refl (Some 0))|].
  split; [intros (d & Hd & _); rewrite H0 in Hd; discriminate Hd|].
  split; intros E; [rewrite E in H; discriminate H|rewrite E in H2; discriminate H2].
Qed.
