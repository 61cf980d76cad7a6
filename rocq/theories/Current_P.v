(** The current T^ab X_b of a symmetric tensor without divergence and a symmetry X. *)
From Coq Require Import Permutation Bool.
From Verif Require Import Alg Alg_P Arr Arr_P Spec Act_P Tensor_P TensorM WorldM SpecWorld CalcM SpecCalc Calc_P CurvM SpecCurv SpecCov Curv_P CurvRun_P FormRun2_P Deriv_P LeibRun_P LeibDiv_P.
From Verif Require Import SpecHead SpecLeib SpecForm.
Local Open Scope nat_scope.

Section Current.
Context {A : AlgOps} {L : AlgLaws A} {DL : DiffLaws A}.
Add Ring Kring : kring (setoid keq_equiv kring_ext).
Variables (n : nat) (m c : oid) (name : string) (xs : list string) (g gi : nat -> nat -> K).
Variables (conf : oid -> list Z) (T : oid -> list nat -> K).
Notation session w := (metric_session w n m c name xs g gi).
Notation known w := (known_results n xs g gi w m c name).
Notation raised t := (act n (map (conv g gi (-1)%Z) (conf t)) (T t)).
Notation opd w := (operand w n m c g gi).
Notation nab i h := (covariant_of n (cx xs) (Gam n xs g gi) i h).
Local Open Scope K_scope.

Variables (t u : oid) (a b : string).
Hypothesis Nab : a <> b.
Hypothesis Lt : length (conf t) = 2%nat.
Hypothesis Lu : length (conf u) = 1%nat.
Hypothesis Vt : valid_cfg (conf t).
Notation p := (FMul (FTensor t [a; b]) (FTensor u [b])).

Lemma eqb_ab : String.eqb a b = false /\ String.eqb b a = false.
Proof. split; apply String.eqb_neq; congruence. Qed.
Lemma no_repeat2 : repeated [a; b] = [].
Proof.
  destruct eqb_ab as [E1 E2]. unfold repeated. rewrite nodup_fixed_point by (repeat constructor; cbn; intuition congruence).
  cbn. unfold count. cbn. rewrite !String.eqb_refl, E1, E2. reflexivity.
Qed.
Lemma no_repeat1 : repeated [b] = [].
Proof. unfold repeated. cbn. unfold count. cbn. rewrite String.eqb_refl. reflexivity. Qed.
Lemma without_nil {X} (l : list X) (f : X -> bool) : (forall x, f x = true) -> filter f l = l.
Proof. intros H. induction l as [|y l IH]; cbn; [reflexivity|]. rewrite H, IH. reflexivity. Qed.
Lemma free_t : free_syms (FTensor t [a; b]) = [a; b].
Proof. cbn [free_syms]. rewrite no_repeat2. reflexivity. Qed.
Lemma free_u : free_syms (FTensor u [b]) = [b].
Proof. cbn [free_syms]. rewrite no_repeat1. reflexivity. Qed.
Lemma free_p : free_syms p = [a].
Proof.
  destruct eqb_ab as [E1 E2]. change (free_syms p) with (without (free_syms (FTensor t [a; b])) (free_syms (FTensor u [b])) ++ without (free_syms (FTensor u [b])) (free_syms (FTensor t [a; b]))).
  rewrite free_t, free_u. unfold without. cbn. rewrite E1, E2, !String.eqb_refl. reflexivity.
Qed.
Lemma cfg_p : free_cfg conf p = [nth 0 (conf t) 0%Z].
Proof.
  destruct eqb_ab as [E1 E2]. cbn [free_cfg]. rewrite free_t, free_u, no_repeat2, no_repeat1.
  destruct (conf t) as [|z1 [|z2 [|]]]; try discriminate Lt. destruct (conf u) as [|z3 [|]]; try discriminate Lu.
  unfold indices_without. cbn. rewrite E1, E2, !String.eqb_refl. reflexivity.
Qed.
Lemma wf_p : well_formed conf p.
Proof.
  destruct eqb_ab as [E1 E2]. cbn [well_formed]. split; (split; [cbn [length]; congruence|]); intros y; unfold count; cbn.
  - destruct (String.eqb_spec y a), (String.eqb_spec y b); cbn; try lia.
  - destruct (String.eqb_spec y b); cbn; lia.
Qed.
Notation DT := (nab [-1; -1]%Z (T t)).
Notation DX := (nab [-1]%Z (T u)).
Lemma value_p k f : nabla_value conf n xs g gi T p k f ==
  nsum n (fun i => nsum n (fun j => gi i j * (DT k [f a; i] * T u [j] + T t [f a; i] * DX k [j]))).
Proof.
  destruct eqb_ab as [E1 E2]. cbn [nabla_value]. rewrite free_t, free_u.
  assert (Ec : common [a; b] [b] = [b]). { unfold common. cbn. rewrite E1, String.eqb_refl. reflexivity. }
  rewrite Ec. cbn [contracted]. apply nsum_ext. intros i _. apply nsum_ext. intros j _. apply kmul_proper; [reflexivity|].
  cbn [value]. rewrite no_repeat2, no_repeat1. cbn [contracted length seq map nth firstn existsb]. unfold upd. rewrite ?String.eqb_refl, ?E1, ?E2. cbn [orb]. rewrite ?String.eqb_refl, ?E1, ?E2. cbn [orb].
  unfold nabla_tensor. rewrite Lt, Lu. reflexivity.
Qed.

Notation Pair := (nsum n (fun k => nsum n (fun s => gi k s *
    nsum n (fun i => nsum n (fun j => gi i j * (DT k [s; i] * T u [j] + T t [s; i] * DX k [j])))))).
Lemma divergence_p : nabla_divergence conf n xs g gi T p 0 [] == Pair.
Proof.
  unfold nabla_divergence. rewrite cfg_p, free_p. cbn [nth].
  assert (E : forall k l z, nabla_components conf n xs g gi T p [a] [z] (k :: inserted 0 l []) ==
    nsum n (fun s => conv g gi (-1)%Z z l s * nsum n (fun i => nsum n (fun j => gi i j * (DT k [s; i] * T u [j] + T t [s; i] * DX k [j]))))).
  { intros k l z. unfold nabla_components. cbn [nth tl map]. change (inserted 0 l []) with [l]. rewrite act_cons. apply nsum_ext. intros s _. rewrite act_nil, value_p.
    apply kmul_proper; [reflexivity|]. unfold assign. cbn. rewrite !String.eqb_refl. reflexivity. }
  assert (Vz : nth 0 (conf t) 0%Z = 1%Z \/ nth 0 (conf t) 0%Z = (-1)%Z).
  { destruct (conf t) as [|z1 l]; [discriminate Lt|]. inversion Vt; assumption. }
  destruct Vz as [-> | ->]; cbn [Z.eqb Pos.eqb].
  - apply nsum_ext. intros k _. rewrite E. apply nsum_ext. intros s _. unfold conv. cbn [Z.eqb Pos.eqb]. reflexivity.
  - apply nsum_ext. intros k _. apply nsum_ext. intros s Hsn. apply kmul_proper; [reflexivity|]. rewrite E. unfold conv. cbn [Z.eqb Pos.eqb].
    apply (nsum_delta_l n s (fun s => nsum n (fun i => nsum n (fun j => gi i j * (DT k [s; i] * T u [j] + T t [s; i] * DX k [j])))) Hsn).
Qed.

Lemma pair_zero : symmetric_fun n g -> inverse_fun n g gi ->
  (forall i j, (i < n)%nat -> (j < n)%nat -> T t [i; j] == T t [j; i]) ->
  (forall i, (i < n)%nat -> nsum n (fun k => nsum n (fun s => gi k s * DT k [s; i])) == k0) ->
  (forall k q, (k < n)%nat -> (q < n)%nat -> DX k [q] + DX q [k] == k0) -> Pair == k0.
Proof.
  intros Sg Ig Ts Td Xk.
  set (U := nsum n (fun k => nsum n (fun s => gi k s * nsum n (fun i => nsum n (fun j => gi i j * (T t [s; i] * DX k [j])))))).
  set (W := nsum n (fun k => nsum n (fun s => gi k s * nsum n (fun i => nsum n (fun j => gi i j * (DT k [s; i] * T u [j])))))).
  transitivity (W + U).
  { unfold W, U. rewrite <- nsum_add. apply nsum_ext. intros k _. rewrite <- nsum_add. apply nsum_ext. intros s _.
    transitivity (gi k s * (nsum n (fun i => nsum n (fun j => gi i j * (DT k [s; i] * T u [j]))) + nsum n (fun i => nsum n (fun j => gi i j * (T t [s; i] * DX k [j]))))); [|ring].
    apply kmul_proper; [reflexivity|]. rewrite <- nsum_add. apply nsum_ext. intros i _. rewrite <- nsum_add. apply nsum_ext. intros j _. ring. }
  assert (EW : W == k0).
  { transitivity (nsum n (fun i => nsum n (fun k => nsum n (fun s => gi k s * DT k [s; i])) * nsum n (fun j => gi i j * T u [j]))).
    - symmetry. transitivity (nsum n (fun i => nsum n (fun k => nsum n (fun s => gi k s * nsum n (fun j => gi i j * (DT k [s; i] * T u [j])))))).
      + apply nsum_ext. intros i _. rewrite <- nsum_scale_r. apply nsum_ext. intros k _. rewrite <- nsum_scale_r. apply nsum_ext. intros s _.
        transitivity (gi k s * (DT k [s; i] * nsum n (fun j => gi i j * T u [j]))); [ring|]. apply kmul_proper; [reflexivity|]. rewrite <- nsum_scale. apply nsum_ext. intros j _. ring.
      + rewrite nsum_swap. apply nsum_ext. intros k _. rewrite nsum_swap. apply nsum_ext. intros s _. rewrite nsum_scale. reflexivity.
    - apply nsum_zero'. intros i Hi. rewrite (Td i Hi). ring. }
  assert (EU : U + U == k0).
  { set (F := fun k s i j => gi k s * (gi i j * (T t [s; i] * DX k [j]))).
    assert (E1 : U == nsum n (fun k => nsum n (fun s => nsum n (fun i => nsum n (fun j => F k s i j))))).
    { apply nsum_ext. intros k _. apply nsum_ext. intros s _. rewrite <- nsum_scale. apply nsum_ext. intros i _. rewrite <- nsum_scale. reflexivity. }
    assert (E2 : U == nsum n (fun k => nsum n (fun s => nsum n (fun i => nsum n (fun j => F j i s k))))).
    { rewrite E1.
      transitivity (nsum n (fun k => nsum n (fun j => nsum n (fun s => nsum n (fun i => F k s i j))))).
      { apply nsum_ext. intros k _. transitivity (nsum n (fun s => nsum n (fun j => nsum n (fun i => F k s i j)))); [apply nsum_ext; intros s _; apply nsum_swap|apply nsum_swap]. }
      rewrite nsum_swap. apply nsum_ext. intros j _.
      transitivity (nsum n (fun k => nsum n (fun i => nsum n (fun s => F k s i j)))); [apply nsum_ext; intros k _; apply nsum_swap|].
      rewrite nsum_swap. apply nsum_ext. intros i _. apply nsum_swap. }
    rewrite E1 at 1. rewrite E2, <- nsum_add. apply nsum_zero'. intros k Hk. rewrite <- nsum_add. apply nsum_zero'. intros s Hsn. rewrite <- nsum_add. apply nsum_zero'. intros i Hi.
    rewrite <- nsum_add. apply nsum_zero'. intros j Hj. unfold F.
    rewrite (Curv_P.gi_sym n g gi Sg Ig j i Hj Hi), (Curv_P.gi_sym n g gi Sg Ig s k Hsn Hk), (Ts i s Hi Hsn).
    transitivity (gi k s * gi i j * T t [s; i] * (DX k [j] + DX j [k])); [ring|]. rewrite (Xk k j Hk Hj). ring. }
  rewrite EW. transitivity (kinvn 2 * (U + U)); [rewrite half_double; ring|]. rewrite EU. ring.
Qed.
Local Close Scope K_scope.

Theorem current_computed letters nm e w : session w -> known w -> opd w t (conf t) (raised t) -> opd w u (conf u) (raised u) ->
  nm <> "TEMP"%string -> ~ In nm (curvature_names name) -> free_letters letters [e] ->
  (forall i j, i < n -> j < n -> keq (T t [i; j]) (T t [j; i])) ->
  (forall i, i < n -> keq (nsum n (fun k => nsum n (fun s => kmul (gi k s) (DT k [s; i])))) k0) ->
  (forall k q, k < n -> q < n -> keq (kadd (DX k [q]) (DX q [k])) k0) ->
  exists z w' r, (let! x := calc_call t [a; b] in let! y := calc_call u [b] in let! z := matmul0 x y in
                  let! j := run_calc z nm "" [] in derivative_of letters e j [e]) w = (Ok z, w') /\
    result_is w' z [] m c [] r /\ holds n 0 r (fun _ => k0) /\
    session w' /\ known w' /\ only_adds_and_grows [t; u] ["TEMP"; nm; (name ++ " Christoffel")]%string w w'.
Proof.
  intros HS Ka Ot Ou Nn Nc Fl Ts Td Xk. destruct (Deriv_P.session_sym n m c name xs g gi w HS) as [Sg Ig].
  destruct (formula_divergence n m c name xs g gi conf T letters p nm [] e [] w HS Ka wf_p (conj I I)) as (z & w' & r & E & R & H & S' & K' & Ad).
  - intros s [<-|[<-|[]]]; assumption.
  - exact Nn.
  - exact Nc.
  - repeat constructor. cbn. tauto.
  - rewrite cfg_p. reflexivity.
  - exact Fl.
  - rewrite cfg_p in R. exists z, w', r. split.
    { cbn [eval] in E. unfold mbind in E |- *. destruct (calc_call t [a; b] w) as [[x|]  wx]; [|exact E]. destruct (calc_call u [b] wx) as [[y|] wy]; [|exact E].
      destruct (matmul0 x y wy) as [[q|] wq]; exact E. }
    split; [exact R|]. split; [|auto]. destruct H as (C1 & C2 & C3). split; [exact C1|]. split; [exact C2|]. intros idx Hx. rewrite (C3 idx Hx).
    destruct Hx as [Lx _]. destruct idx; [|discriminate Lx]. cbn [length]. etransitivity; [exact divergence_p|apply pair_zero; assumption].
Qed.
End Current.
