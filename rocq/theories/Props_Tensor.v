(** Properties of raising and lowering, coordinate changes, metrics and Christoffel symbols
    at the level of components: C08 - C13, C16, C17, C19, C20, C23, C24. *)
From Coq Require Import QArith Qcanon Permutation.
From Verif Require Import Alg Alg_P Arr Spec UtilsM TensorM RL_P Tensor_P Jacobian_P Chr_P Subs_P Inst Ex Witness_Tensor_P.
Local Open Scope nat_scope.
Local Open Scope K_scope.

(** C08.  Every position that goes from -1 to 1 is contracted with the inverse metric, every
    position that goes from 1 to -1 with the metric, the others with the identity ([conv]);
    [act] keeps every index at its own position. *)
Theorem C08_raise_lower_contracts_with_metric :
  forall (A : AlgOps) (L : AlgLaws A) (n : nat) (g gi : arr) (src tgt : list Z) (a : arr),
  (1 <= n)%nat -> square n g -> square n gi -> valid_cfg src -> valid_cfg tgt ->
  cubic n a -> length src = rank a -> length tgt = rank a ->
  exists b, raise_lower g gi src tgt a = Ok b /\ awf b /\ shape b = shape a /\
    forall idx, inb (shape a) idx = true ->
      aget b idx == act n (map (fun st => conv (mfun g) (mfun gi) (fst st) (snd st)) (combine src tgt)) (aget a) idx.
Proof. exact (@raise_lower_spec). Qed.
Print Assumptions C08_raise_lower_contracts_with_metric.

(** C09.  There and back gives the original components; going via t equals going directly. *)
Theorem C09_raise_lower_round_trip :
  forall (A : AlgOps) (L : AlgLaws A) (n : nat) (g gi : arr) (src tgt : list Z) (a : arr),
  (1 <= n)%nat -> square n g -> square n gi -> inverse_fun n (mfun g) (mfun gi) ->
  valid_cfg src -> valid_cfg tgt -> cubic n a -> length src = rank a -> length tgt = rank a ->
  exists b c, raise_lower g gi src tgt a = Ok b /\ raise_lower g gi tgt src b = Ok c /\ aeq c a.
Proof. exact (@raise_lower_round_trip). Qed.
Print Assumptions C09_raise_lower_round_trip.

Theorem C09_raise_lower_composition :
  forall (A : AlgOps) (L : AlgLaws A) (n : nat) (g gi : arr) (src tgt u : list Z) (a : arr),
  (1 <= n)%nat -> square n g -> square n gi -> inverse_fun n (mfun g) (mfun gi) ->
  valid_cfg src -> valid_cfg tgt -> valid_cfg u ->
  cubic n a -> length src = rank a -> length tgt = rank a -> length u = rank a ->
  exists b c d, raise_lower g gi src tgt a = Ok b /\ raise_lower g gi tgt u b = Ok c /\
    raise_lower g gi src u a = Ok d /\ aeq c d.
Proof. exact (@raise_lower_composition). Qed.
Print Assumptions C09_raise_lower_composition.

Example C08_C09_hypotheses_met :
  (1 <= 2)%nat /\ square 2 ex_g /\ square 2 ex_gi /\ inverse_fun 2 (mfun ex_g) (mfun ex_gi) /\
  valid_cfg [1; -1; -1]%Z /\ valid_cfg [-1; -1; 1]%Z /\ cubic 2 ex_rank3 /\ rank ex_rank3 = 3%nat /\
  exists b, raise_lower ex_g ex_gi [1; -1; -1]%Z [-1; -1; 1]%Z ex_rank3 = Ok b.
Proof. exact ex_rl_hyps. Qed.

(** C10.  One Jacobian factor per index, then the rules in the listed order. *)
Theorem C10_transform_applies_jacobians :
  forall (A : AlgOps) (L : AlgLaws A) (SL : SubsLaws A) (n : nat) (J Jinv : arr) rules (zs : list Z) (a : arr),
  cubic n a -> square n J -> square n Jinv -> valid_cfg zs -> length zs = rank a ->
  exists b, transform J Jinv rules (rank a) zs a = Ok b /\ awf b /\ shape b = shape a /\
    (forall idx, inb (shape a) idx = true ->
      aget b idx == subs_seq rules (act n (map (jac (mfun J) (mfun Jinv)) zs) (aget a) idx)) /\
    forall idx, inb (shape a) idx = true ->
      aget b idx == act n (map (jac (fun i j => subs_seq rules (mfun J i j)) (fun i j => subs_seq rules (mfun Jinv i j))) zs)
                          (fun ks => subs_seq rules (aget a ks)) idx.
Proof. exact (fun A L SL => @transform_hom A L SL). Qed.
Print Assumptions C10_transform_applies_jacobians.

Example C10_hypotheses_met :
  cubic 2 ex_rank3 /\ square 2 ex_J /\ square 2 ex_Ji /\ inverse_fun 2 (mfun ex_J) (mfun ex_Ji) /\
  valid_cfg [1; -1; 1]%Z /\ rank ex_rank3 = 3%nat /\
  exists b, transform ex_J ex_Ji ex_rules 3 [1; -1; 1]%Z ex_rank3 = Ok b.
Proof. exact ex_tr_hyps. Qed.

(** C11.  Two changes in a row are the change with the product Jacobian; a change followed by
    the inverse change gives the original components. *)
Theorem C11_transform_composition :
  forall (A : AlgOps) (L : AlgLaws A) (SL : SubsLaws A) (n : nat) (J1 Ji1 : arr) R1 (J2 Ji2 : arr) R2 (J3 Ji3 : arr) R3
         (zs : list Z) (a : arr),
  cubic n a -> square n J1 -> square n Ji1 -> square n J2 -> square n Ji2 -> square n J3 -> square n Ji3 ->
  valid_cfg zs -> length zs = rank a ->
  (forall i k, (i < n)%nat -> (k < n)%nat ->
     nsum n (fun j => subs_seq R2 (subs_seq R1 (aget J1 [i; j])) * subs_seq R2 (aget J2 [j; k]))
       == subs_seq R3 (aget J3 [i; k])) ->
  (forall i k, (i < n)%nat -> (k < n)%nat ->
     nsum n (fun j => subs_seq R2 (aget Ji2 [i; j]) * subs_seq R2 (subs_seq R1 (aget Ji1 [j; k])))
       == subs_seq R3 (aget Ji3 [i; k])) ->
  (forall idx, inb (shape a) idx = true -> subs_seq R2 (subs_seq R1 (aget a idx)) == subs_seq R3 (aget a idx)) ->
  exists b c d, transform J1 Ji1 R1 (rank a) zs a = Ok b /\ transform J2 Ji2 R2 (rank a) zs b = Ok c /\
    transform J3 Ji3 R3 (rank a) zs a = Ok d /\ aeq c d.
Proof. exact (fun A L SL => @transform_composition A L SL). Qed.
Print Assumptions C11_transform_composition.

Theorem C11_transform_undone :
  forall (A : AlgOps) (L : AlgLaws A) (SL : SubsLaws A) (n : nat) (J1 Ji1 : arr) R1 (J2 Ji2 : arr) R2 (zs : list Z) (a : arr),
  cubic n a -> square n J1 -> square n Ji1 -> square n J2 -> square n Ji2 ->
  valid_cfg zs -> length zs = rank a ->
  (forall i k, (i < n)%nat -> (k < n)%nat ->
     nsum n (fun j => subs_seq R2 (subs_seq R1 (aget J1 [i; j])) * subs_seq R2 (aget J2 [j; k])) == kdelta i k) ->
  (forall i k, (i < n)%nat -> (k < n)%nat ->
     nsum n (fun j => subs_seq R2 (aget Ji2 [i; j]) * subs_seq R2 (subs_seq R1 (aget Ji1 [j; k]))) == kdelta i k) ->
  (forall idx, inb (shape a) idx = true -> subs_seq R2 (subs_seq R1 (aget a idx)) == aget a idx) ->
  exists b c, transform J1 Ji1 R1 (rank a) zs a = Ok b /\ transform J2 Ji2 R2 (rank a) zs b = Ok c /\ aeq c a.
Proof. exact (fun A L SL => @transform_undone A L SL). Qed.
Print Assumptions C11_transform_undone.

Example C11_hypotheses_met :
  (forall i k, (i < 2)%nat -> (k < 2)%nat ->
     nsum 2 (fun j => subs_seq ex_back (subs_seq ex_rules (aget ex_J [i; j])) * subs_seq ex_back (aget ex_J2 [j; k])) == kdelta i k) /\
  (forall i k, (i < 2)%nat -> (k < 2)%nat ->
     nsum 2 (fun j => subs_seq ex_back (aget ex_Ji2 [i; j]) * subs_seq ex_back (subs_seq ex_rules (aget ex_Ji [j; k]))) == kdelta i k) /\
  (forall idx, inb (shape ex_rank3) idx = true -> subs_seq ex_back (subs_seq ex_rules (aget ex_rank3 idx)) == aget ex_rank3 idx).
Proof. exact ex_undo_hyps. Qed.

(** C12.  Raise or lower, then change coordinates = change coordinates, then raise or lower
    with the transformed metric g' and its inverse gi'. *)
Theorem C12_transform_commutes_with_raise_lower :
  forall (A : AlgOps) (L : AlgLaws A) (SL : SubsLaws A) (n : nat) (J Jinv : arr) rules (g gi g' gi' : arr) (src tgt : list Z) (a : arr),
  (1 <= n)%nat -> square n J -> square n Jinv -> square n g -> square n gi -> square n gi' ->
  inverse_fun n (mfun J) (mfun Jinv) -> inverse_fun n (mfun g) (mfun gi) ->
  transform J Jinv rules 2 [-1; -1]%Z g = Ok g' -> inverse_fun n (mfun g') (mfun gi') ->
  valid_cfg src -> valid_cfg tgt -> cubic n a -> length src = rank a -> length tgt = rank a ->
  exists b c b' c', raise_lower g gi src tgt a = Ok b /\ transform J Jinv rules (rank a) tgt b = Ok c /\
    transform J Jinv rules (rank a) src a = Ok b' /\ raise_lower g' gi' src tgt b' = Ok c' /\ aeq c c'.
Proof. exact (fun A L SL => @transform_raise_lower A L SL). Qed.
Print Assumptions C12_transform_commutes_with_raise_lower.

(** C13.  The full contraction of two arrays with opposite configurations. *)
Theorem C13_scalars_invariant :
  forall (A : AlgOps) (L : AlgLaws A) (SL : SubsLaws A) (n : nat) (J Jinv : arr) rules (zs : list Z) (a b : arr),
  (1 <= n)%nat -> cubic n a -> cubic n b -> rank a = rank b -> square n J -> square n Jinv ->
  inverse_fun n (mfun J) (mfun Jinv) -> valid_cfg zs -> length zs = rank a ->
  exists a' b' s s', transform J Jinv rules (rank a) zs a = Ok a' /\
    transform J Jinv rules (rank b) (map Z.opp zs) b = Ok b' /\
    contract a b (map (fun i => (Z.of_nat i, Z.of_nat i)) (seq 0 (rank a))) = Ok s /\
    contract a' b' (map (fun i => (Z.of_nat i, Z.of_nat i)) (seq 0 (rank a))) = Ok s' /\
    shape s = [] /\ shape s' = [] /\ aget s' [] == subs_seq rules (aget s []).
Proof. exact (fun A L SL => @scalar_invariant A L SL). Qed.
Print Assumptions C13_scalars_invariant.

Example C12_C13_hypotheses_met :
  square 2 ex_J /\ square 2 ex_Ji /\ inverse_fun 2 (mfun ex_J) (mfun ex_Ji) /\
  square 2 ex_g /\ square 2 ex_gi /\ inverse_fun 2 (mfun ex_g) (mfun ex_gi) /\
  exists g' gi', transform ex_J ex_Ji ex_rules 2 [-1; -1]%Z ex_g = Ok g' /\ square 2 gi' /\ inverse_fun 2 (mfun g') (mfun gi').
Proof. exact ex_commute_hyps. Qed.

(** C16.  The representations stored by the constructor, and those stored by the first
    transformation of a symmetric metric in its default configuration. *)
Theorem C16_new_metric_representations :
  forall (A : AlgOps) (L : AlgLaws A) (IL : InvLaws A) (n : nat) (indices : list Z) (g : arr) d,
  square n g -> indices = [-1; -1]%Z \/ indices = [1; 1]%Z ->
  metric_representations indices g = Ok d ->
  dget cfg_eqb indices d = Some g /\
  dget cfg_eqb [1; -1]%Z d = Some (eye n) /\ dget cfg_eqb [-1; 1]%Z d = Some (eye n) /\
  exists gi, dget cfg_eqb (map Z.opp indices) d = Some gi /\ ainv g = Ok gi /\ square n gi /\
    inverse_fun n (mfun g) (mfun gi).
Proof. exact (fun A L IL => @metric_representations_spec A L IL). Qed.
Print Assumptions C16_new_metric_representations.

Theorem C16_transformed_metric_representations :
  forall (A : AlgOps) (L : AlgLaws A) (IL : InvLaws A) (SL : SubsLaws A) (n : nat) (J Jinv : arr) rules (g t : arr) (indices : list Z) d,
  square n g -> square n J -> square n Jinv -> symmetric_fun n (mfun g) -> indices = [-1; -1]%Z \/ indices = [1; 1]%Z ->
  transform J Jinv rules 2 indices g = Ok t ->
  metric_fill indices indices [(indices, t)] = (d, Ok tt) ->
  dget cfg_eqb indices d = Some t /\ symmetric_fun n (mfun t) /\
  (exists ti, dget cfg_eqb (map Z.opp indices) d = Some ti /\ square n ti /\ inverse_fun n (mfun t) (mfun ti)) /\
  (exists m, dget cfg_eqb [1; -1]%Z d = Some m /\ square n m /\
     forall i j, (i < n)%nat -> (j < n)%nat -> aget m [i; j] == kdelta i j) /\
  (exists m, dget cfg_eqb [-1; 1]%Z d = Some m /\ square n m /\
     forall i j, (i < n)%nat -> (j < n)%nat -> aget m [i; j] == kdelta i j).
Proof. exact (fun A L IL SL => @transformed_metric_spec A L IL SL). Qed.
Print Assumptions C16_transformed_metric_representations.

Example C16_hypotheses_met :
  square 2 ex_g /\ symmetric_fun 2 (mfun ex_g) /\
  (exists d, metric_representations [-1; -1]%Z ex_g = Ok d) /\
  exists t, transform ex_J ex_Ji ex_rules 2 [-1; -1]%Z ex_g = Ok t /\
    snd (metric_fill [-1; -1]%Z [-1; -1]%Z [([-1; -1]%Z, t)]) = Ok tt.
Proof. exact ex_metric_hyps. Qed.

(** C17.  The transformed Christoffel symbols are those of the transformed metric.  xs and ys
    are the old and new coordinates; every old coordinate has one rule, no right side
    contains an old coordinate and the metric contains no new coordinate. *)
Theorem C17_christoffel_transform :
  forall (A : AlgOps) (L : AlgLaws A) (DL : DiffLaws A) (SL : SubsLaws A) (IL : InvLaws A)
         (n : nat) (xs ys : list string) rules (g gi Gam J Ji C g' gi' : arr),
  (1 <= n)%nat -> length xs = n -> length ys = n ->
  NoDup (map fst rules) -> Permutation (map fst rules) xs ->
  (forall x, In x xs -> ~ In x ys) ->
  (forall r x, In r rules -> In x xs -> free_of x (snd r)) ->
  square n g -> square n gi -> symmetric_fun n (mfun g) -> inverse_fun n (mfun g) (mfun gi) ->
  (forall s i j, In s ys -> (i < n)%nat -> (j < n)%nat -> kdiff s (aget g [i; j]) == k0) ->
  awf Gam -> shape Gam = [n; n; n]%nat ->
  (forall i j k, (i < n)%nat -> (j < n)%nat -> (k < n)%nat ->
     aget Gam [i; j; k] == christoffel_of n (fun m => nth m xs ""%string) (mfun g) (mfun gi) i j k) ->
  calculate_jacobian xs ys rules = Ok (J, Ji, C) ->
  transform J Ji rules 2 [-1; -1]%Z g = Ok g' -> square n gi' -> inverse_fun n (mfun g') (mfun gi') ->
  exists Gam', christoffel_transform xs J Ji C rules 3 [1; -1; -1]%Z Gam = Ok Gam' /\
    awf Gam' /\ shape Gam' = [n; n; n]%nat /\
    forall i j k, (i < n)%nat -> (j < n)%nat -> (k < n)%nat ->
      aget Gam' [i; j; k] == christoffel_of n (fun m => nth m ys ""%string) (mfun g') (mfun gi') i j k.
Proof. exact (fun A L DL SL IL => @christoffel_transform_spec A L DL SL IL). Qed.
Print Assumptions C17_christoffel_transform.

Example C17_hypotheses_met :
  Permutation (map fst ex_rules) ex_xs /\ NoDup (map fst ex_rules) /\
  (forall x, In x ex_xs -> ~ In x ex_ys) /\
  (forall r x, In r ex_rules -> In x ex_xs -> free_of (A := PolyOps) x (snd r)) /\
  square 2 ex_g /\ square 2 ex_gi /\ symmetric_fun 2 (mfun ex_g) /\ inverse_fun 2 (mfun ex_g) (mfun ex_gi) /\
  (forall s i j, In s ex_ys -> (i < 2)%nat -> (j < 2)%nat -> kdiff s (aget ex_g [i; j]) == k0) /\
  awf ex_Gam /\ shape ex_Gam = [2; 2; 2]%nat /\
  (forall i j k, (i < 2)%nat -> (j < 2)%nat -> (k < 2)%nat ->
     aget ex_Gam [i; j; k] == christoffel_of 2 (fun m => nth m ex_xs ""%string) (mfun ex_g) (mfun ex_gi) i j k) /\
  exists J Ji C g' gi', calculate_jacobian ex_xs ex_ys ex_rules = Ok (J, Ji, C) /\
    transform J Ji ex_rules 2 [-1; -1]%Z ex_g = Ok g' /\ square 2 gi' /\ inverse_fun 2 (mfun g') (mfun gi').
Proof. exact ex_chr_hyps. Qed.

(** C19.  Row i of the Jacobian belongs to the i-th coordinate whatever the order of the
    rules. *)
Theorem C19_jacobian_follows_coordinate_order :
  forall (A : AlgOps) (L : AlgLaws A) (DL : DiffLaws A) (IL : InvLaws A) (n : nat) (self other : list string) rules,
  (1 <= n)%nat -> length self = n -> length other = n -> NoDup (map fst rules) ->
  forall J Ji C, calculate_jacobian self other rules = Ok (J, Ji, C) ->
  square n J /\ square n Ji /\ awf C /\ shape C = [n; n; n]%nat /\
  inverse_fun n (mfun J) (mfun Ji) /\
  (forall i j, (i < n)%nat -> (j < n)%nat ->
     aget J [i; j] == match dget String.eqb (nth i self ""%string) rules with
                      | Some e => kdiff (nth j other ""%string) e
                      | None => kdelta i j
                      end) /\
  (forall i j k, (i < n)%nat -> (j < n)%nat -> (k < n)%nat ->
     aget C [i; j; k] == match dget String.eqb (nth i self ""%string) rules with
                         | Some e => kdiff (nth k other ""%string) (kdiff (nth j other ""%string) e)
                         | None => k0
                         end) /\
  (forall i j k, (i < n)%nat -> (j < n)%nat -> (k < n)%nat -> aget C [i; j; k] == aget C [i; k; j]).
Proof. exact (fun A L DL IL => @calculate_jacobian_spec A L DL IL). Qed.
Print Assumptions C19_jacobian_follows_coordinate_order.

(** The only failure is a Jacobian that SymPy cannot invert. *)
Theorem C19_jacobian_fails_only_if_singular :
  forall (A : AlgOps) (n : nat) (self other : list string) rules,
  (1 <= n)%nat -> length self = n -> length other = n -> NoDup (map fst rules) ->
  (exists r, calculate_jacobian self other rules = Ok r) \/ calculate_jacobian self other rules = Err ESymPy.
Proof. exact (@calculate_jacobian_fails). Qed.
Print Assumptions C19_jacobian_fails_only_if_singular.

Example C19_hypotheses_met :
  exists J Ji C, calculate_jacobian ex_xs ex_ys ex_rules = Ok (J, Ji, C) /\ NoDup (map fst ex_rules).
Proof. exact ex_jacobian. Qed.

(** C20.  The property is false: the coordinate z has no rule and is the target coordinate
    number 0, but its Jacobian row has the 1 in column 1. *)
Theorem C20_missing_rule_is_positional_refuted :
  exists (J Ji C : @arr PolyOps),
  calculate_jacobian ex_self ex_other ex_shift = Ok (J, Ji, C) /\
  nth 1 ex_self ""%string = "z"%string /\ dget String.eqb "z"%string ex_shift = None /\
  nth 0 ex_other ""%string = "z"%string /\
  ~ (aget J [1; 0]%nat == k1) /\ aget J [1; 1]%nat == k1.
Proof. exact missing_rule_witness. Qed.
Print Assumptions C20_missing_rule_is_positional_refuted.

(** C23.  The property is false: for the rules x = y, y = x the substitution one after the
    other is not the simultaneous one. *)
Theorem C23_substitution_not_simultaneous_refuted :
  exists (rules : list (string * @K PolyOps)) fresh (e : @K PolyOps),
  NoDup (map fst rules) /\ fresh_for rules fresh e /\ ~ (subs_seq rules e == subs_sim rules fresh e).
Proof. exact swap_witness. Qed.
Print Assumptions C23_substitution_not_simultaneous_refuted.

(** C24.  Sequential substitution is simultaneous if no right side mentions a later left
    side. *)
Theorem C24_sequential_is_simultaneous :
  forall (A : AlgOps) (L : AlgLaws A) (SL : SubsLaws A) (rules : list (string * K)) (fresh : list string) (e : K),
  no_later rules -> NoDup (map fst rules) -> fresh_for rules fresh e ->
  subs_seq rules e == subs_sim rules fresh e.
Proof. exact (fun A L SL => @subs_seq_simultaneous A L SL). Qed.
Print Assumptions C24_sequential_is_simultaneous.

(** [subs_sim] replaces every symbol at once and respects sums and products. *)
Theorem C24_simultaneous_meaning :
  forall (A : AlgOps) (L : AlgLaws A) (SL : SubsLaws A) (rules : list (string * K)) (fresh : list string),
  NoDup (map fst rules) -> fresh_for rules fresh k0 ->
  (forall x r, In (x, r) rules -> subs_sim rules fresh (ksym x) == r) /\
  (forall s, ~ In s (map fst rules) -> ~ In s fresh -> subs_sim rules fresh (ksym s) == ksym s) /\
  (forall a b, subs_sim rules fresh (a + b) == subs_sim rules fresh a + subs_sim rules fresh b) /\
  (forall a b, subs_sim rules fresh (a * b) == subs_sim rules fresh a * subs_sim rules fresh b) /\
  subs_sim rules fresh k1 == k1.
Proof. exact (fun A L SL => @subs_sim_meaning A L SL). Qed.
Print Assumptions C24_simultaneous_meaning.

Example C24_hypotheses_met :
  no_later (A := PolyOps) ex_rules /\ NoDup (map fst ex_rules) /\
  fresh_for (A := PolyOps) ex_rules ["a"; "b"]%string (PMul (PV "x") (PV "y")).
Proof. exact ex_no_later. Qed.
