(** Properties of Utils.py: C01 - C07 and C67. *)
From Coq Require Import QArith Qcanon.
From Verif Require Import Alg Arr Spec UtilsM Utils_P Arr2_P Inst Ex Witness_Utils_P.
Local Open Scope nat_scope.
Local Open Scope K_scope.

(** C01.  contract is the Einstein sum over the paired positions. *)
Theorem C01_contract_is_einstein_sum :
  forall (A : AlgOps) (L : AlgLaws A) (n : nat) (a1 a2 : arr) (ps : list (Z * Z)),
  (1 <= n)%nat -> cubic n a1 -> cubic n a2 -> valid_pairs (rank a1) (rank a2) ps ->
  exists r, contract a1 a2 ps = Ok r /\ awf r /\
    shape r = repeat n (rank a1 - length ps + (rank a2 - length ps))%nat /\
    (length ps <= rank a1)%nat /\ (length ps <= rank a2)%nat /\
    forall f1 f2, in_range n (rank a1 - length ps)%nat f1 -> in_range n (rank a2 - length ps)%nat f2 ->
      aget r (f1 ++ f2) ==
      lsum (tuples n (length ps)) (fun ks =>
        aget a1 (place (rank a1) (map (fun p => Z.to_nat (fst p)) ps) ks f1) *
        aget a2 (place (rank a2) (map (fun p => Z.to_nat (snd p)) ps) ks f2)).
Proof. exact (@contract_spec). Qed.
Print Assumptions C01_contract_is_einstein_sum.

(** The tuple [place r pos ks f] of the statement is the one with the values ks at the
    positions pos and the values f at the other positions in order. *)
Theorem C01_place_meaning :
  forall (r : nat) (pos ks f : list nat),
  NoDup pos -> Forall (fun q => (q < r)%nat) pos -> length ks = length pos ->
  (length f + length pos = r)%nat ->
  length (place r pos ks f) = r /\
  map (fun q => nth q (place r pos ks f) 0%nat) pos = ks /\
  map (fun q => nth q (place r pos ks f) 0%nat) (free_pos r pos) = f.
Proof. exact place_spec. Qed.
Print Assumptions C01_place_meaning.

Example C01_hypotheses_met :
  (1 <= 2)%nat /\ cubic 2 ex_rank3 /\ cubic 2 ex_mat /\
  valid_pairs (rank ex_rank3) (rank ex_mat) [(2, 0); (0, 1)]%Z.
Proof. exact ex_contract_hyps. Qed.

(** C02.  contract rejects exactly the invalid position lists, with ValueError. *)
Theorem C02_contract_validation :
  forall (A : AlgOps) (L : AlgLaws A) (n : nat) (a1 a2 : arr) (ps : list (Z * Z)),
  (1 <= n)%nat -> cubic n a1 -> cubic n a2 ->
  (contract a1 a2 ps = Err EValueError <-> ~ valid_pairs (rank a1) (rank a2) ps) /\
  (valid_pairs (rank a1) (rank a2) ps <-> exists r, contract a1 a2 ps = Ok r).
Proof. exact (@contract_validation). Qed.
Print Assumptions C02_contract_validation.

Example C02_rejects_and_accepts :
  contract ex_mat ex_vec [(2, 0)]%Z = Err EValueError /\
  contract ex_mat ex_mat [(0, 0); (0, 1)]%Z = Err EValueError /\
  contract ex_mat ex_vec [(-1, 0)]%Z = Err EValueError /\
  exists r, contract ex_mat ex_vec [(1, 0)]%Z = Ok r.
Proof. exact ex_contract_rejects. Qed.

(** C03.  The property is false: axes of lengths 2 and 3 are contracted without an error,
    and the last entry of the longer vector has no influence. *)
Theorem C03_dimension_mismatch_silent_refuted :
  exists (a1 a2 a2' r : @arr PolyOps),
  shape a1 = [2]%nat /\ shape a2 = [3]%nat /\ shape a2' = [3]%nat /\
  awf a1 /\ awf a2 /\ awf a2' /\ ~ aeq a2 a2' /\
  contract a1 a2 [(0, 0)]%Z = Ok r /\ contract a1 a2' [(0, 0)]%Z = Ok r.
Proof. exact contract_mismatch_witness. Qed.
Print Assumptions C03_dimension_mismatch_silent_refuted.

(** C04.  Gradient: derivative index first. *)
Theorem C04_gradient :
  forall (A : AlgOps) (L : AlgLaws A) (n : nat) (coords : list string) (a : arr),
  (1 <= n)%nat -> length coords = n -> cubic n a ->
  exists r, partial_contract coords a None = Ok r /\ awf r /\ shape r = repeat n (S (rank a)) /\
    forall i rest, (i < n)%nat -> in_range n (rank a) rest ->
      aget r (i :: rest) == kdiff (nth i coords ""%string) (aget a rest).
Proof. exact (@gradient_spec). Qed.
Print Assumptions C04_gradient.

(** C04.  Divergence over position 0 or 1. *)
Theorem C04_divergence :
  forall (A : AlgOps) (L : AlgLaws A) (n : nat) (coords : list string) (a : arr) (ix : Z),
  (1 <= n)%nat -> length coords = n -> cubic n a -> (0 <= ix <= 1)%Z -> (ix < Z.of_nat (rank a))%Z ->
  exists r, partial_contract coords a (Some ix) = Ok r /\ awf r /\
    shape r = repeat n (rank a - 1)%nat /\
    forall rest, in_range n (rank a - 1)%nat rest ->
      aget r rest == nsum n (fun i => kdiff (nth i coords ""%string)
        (aget a (firstn (Z.to_nat ix) rest ++ i :: skipn (Z.to_nat ix) rest))).
Proof. exact (@divergence_spec). Qed.
Print Assumptions C04_divergence.

Example C04_hypotheses_met :
  (1 <= 2)%nat /\ length ["x"; "y"]%string = 2%nat /\ cubic 2 ex_rank3 /\
  (0 <= 1 <= 1)%Z /\ (1 < Z.of_nat (rank ex_rank3))%Z.
Proof. exact ex_div_hyps. Qed.

(** C05.  The property is false twice: position 2 of a rank 3 array is rejected, and
    position 1 of a rank 1 array raises IndexError instead of ValueError. *)
Theorem C05_divergence_positions_refuted :
  exists (coords : list string) (a b : @arr PolyOps),
  cubic 2 a /\ rank a = 3%nat /\ length coords = 2%nat /\
  partial_contract coords a (Some 2%Z) = Err EValueError /\
  cubic 2 b /\ rank b = 1%nat /\
  partial_contract coords b (Some 1%Z) = Err EIndexError.
Proof. exact divergence_witness. Qed.
Print Assumptions C05_divergence_positions_refuted.

(** C05, extent of the fault: no position above 1 is ever accepted. *)
Theorem C05_no_position_above_one :
  forall (A : AlgOps) (coords : list string) (a : arr) (ix : Z),
  (2 <= ix)%Z -> partial_contract coords a (Some ix) = Err EValueError.
Proof. exact (@divergence_high). Qed.
Print Assumptions C05_no_position_above_one.

(** C06.  elements lists every position once, with its entry. *)
Theorem C06_elements :
  forall (A : AlgOps) (a : arr), awf a ->
  NoDup (map fst (elements a)) /\
  forall idx x, In (idx, x) (elements a) <-> inb (shape a) idx = true /\ x = aget a idx.
Proof. exact (@elements_complete). Qed.
Print Assumptions C06_elements.

(** C06.  map_to_array applies the function at every position. *)
Theorem C06_map_to_array :
  forall (A : AlgOps) (n : nat) (a : arr) (f : K -> K),
  (1 <= n)%nat -> cubic n a ->
  exists r, map_to_array a f = Ok r /\ awf r /\ shape r = shape a /\
    forall idx, inb (shape a) idx = true -> aget r idx = f (aget a idx).
Proof. exact (@map_to_array_spec). Qed.
Print Assumptions C06_map_to_array.

Example C06_hypotheses_met : (1 <= 2)%nat /\ cubic 2 ex_rank3 /\ length (elements ex_rank3) = 8%nat.
Proof. exact ex_elements. Qed.

(** C07.  The property is false: a column comes back as a square array. *)
Theorem C07_map_to_array_shape_refuted :
  exists (a r : @arr PolyOps) (f : pexp -> pexp),
  awf a /\ map_to_array a f = Ok r /\ shape r <> shape a.
Proof. exact map_to_array_witness. Qed.
Print Assumptions C07_map_to_array_shape_refuted.

(** C07, extent of the fault: this happens to every column of length at least 2. *)
Theorem C07_every_column_becomes_square :
  forall (A : AlgOps) (n : nat) (d : list K) (f : K -> K),
  (2 <= n)%nat -> length d = n ->
  exists r, map_to_array (mkArr [n; 1%nat] d) f = Ok r /\ shape r = [n; n].
Proof. exact (@map_to_array_column). Qed.
Print Assumptions C07_every_column_becomes_square.

(** C67.  zero_tensor accepts exactly the ranks and dimensions that make sense. *)
Theorem C67_zero_tensor :
  forall (A : AlgOps) (dim rk : Z),
  ((rk = 0 \/ 0 < rk /\ 1 <= dim)%Z ->
     exists z, zero_tensor dim rk = Ok z /\ awf z /\ shape z = repeat (Z.to_nat dim) (Z.to_nat rk) /\
       forall idx, inb (shape z) idx = true -> aget z idx = k0) /\
  (~ (rk = 0 \/ 0 < rk /\ 1 <= dim)%Z -> zero_tensor dim rk = Err EValueError).
Proof. exact (@zero_tensor_all). Qed.
Print Assumptions C67_zero_tensor.

Example C67_cases :
  is_ok (@zero_tensor PolyOps 3 2) = true /\ @zero_tensor PolyOps 3 (-1) = Err EValueError /\
  @zero_tensor PolyOps 0 1 = Err EValueError /\ is_ok (@zero_tensor PolyOps (-5) 0) = true.
Proof. repeat split; reflexivity. Qed.
