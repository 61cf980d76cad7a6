(** The divergence of the divergence, as computed. *)
From Verif Require Import Alg Alg_P Arr Spec TensorM WorldM SpecWorld World_P Registry_P CalcM SpecCalc Calc_P CurvM SpecCurv SpecCov SpecDeriv CurvRun_P Cov4_P Deriv_P Charge_P.
Local Open Scope nat_scope.

Section ChargeRun.
Context {A : AlgOps} {L : AlgLaws A} {D : DiffLaws A}.
Variables (n : nat) (m c : oid) (name : string) (xs : list string) (g gi : nat -> nat -> K).
Notation session w := (metric_session w n m c name xs g gi).
Notation known w := (known_results n xs g gi w m c name).
Notation value w := (tensor_value w n m c).
Notation yields := (yields n xs g gi).

Lemma charge_computed w t z h a b nm : session w -> known w -> (z = 1 \/ z = -1)%Z -> value w t [z; z] h -> ~ named w "TEMP" t ->
  (forall p q, p < n -> q < n -> keq (h [p; q]) (kopp (h [q; p]))) ->
  nm <> "TEMP"%string -> ~ In nm (curvature_names name) -> a <> b -> two_letters_free [a; b] ->
  yields (let! d := CovariantD [b] in let! x := calc_call t [a; b] in let! y := matmul d x in
          let! j := run_calc y nm "" [] in
          let! d' := CovariantD [a] in let! x' := calc_call j [a] in matmul d' x') m c name
    [nm; (name ++ " Christoffel")%string] [] [] (fun _ => k0) w.
Proof.
  intros HS Ka Hz Vt Nt Ha Nn Nc Nab H2. destruct (Deriv_P.session_sym n m c name xs g gi w HS) as [Sg Ig].
  assert (V2 : valid_cfg [z; z]) by (apply valid2, Hz). assert (V1 : valid_cfg [z]) by (constructor; [exact Hz|constructor]).
  assert (Nd : NoDup ([a] ++ b :: [])) by (repeat constructor; cbn; intuition congruence).
  assert (Y := divergence_value n m c name xs g gi w t [z; z] h [a] [] b HS Ka Vt Nt V2 Nd eq_refl H2). cbn [length firstn skipn app] in Y.
  destruct (publish_yields n m c name xs g gi _ _ [a] [z] _ w nm "" Nn Nc ltac:(repeat constructor; cbn; tauto) eq_refl V1 Y) as (j & w1 & E1 & Nj & Vj & Ad1 & S1 & K1).
  assert (H1 : two_letters_free ([] ++ a :: [])).
  { destruct H2 as (u & v & P & Q & R & S & T). exists u, v. cbn in *. tauto. }
  assert (Nd1 : NoDup ([] ++ a :: [])) by (repeat constructor; cbn; tauto).
  destruct (divergence_value n m c name xs g gi w1 j [z] _ [] [] a S1 K1 Vj Nj V1 Nd1 eq_refl H1) as (y & w2 & e & E2 & R2 & He & Ad2 & S2 & K2).
  exists y, w2, e. split.
  { apply bind_inv in E1 as (u & w0 & E0 & E1). apply bind_inv in E0 as (d & w00 & E00 & E0). apply bind_inv in E0 as (v & w01 & E01 & E0).
    rewrite (bind_ok _ _ _ _ _ E00), (bind_ok _ _ _ _ _ E01), (bind_ok _ _ _ _ _ E0), (bind_ok _ _ _ _ _ E1). exact E2. }
  split; [exact R2|]. split.
  { destruct He as (C & R & V). split; [exact C|]. split; [exact R|]. intros idx Hx. rewrite (V idx Hx). destruct Hx as [Lx _]. destruct idx; [|discriminate Lx].
    destruct Hz as [->| ->]; [apply (div_zero n (cx xs) g gi Sg Ig h Ha)|apply (div_zero_lower n (cx xs) g gi Sg Ig h Ha)]. }
  split; [|auto]. assert (Rw : registry_ok w2) by apply S2.
  eapply only_adds_then; [exact Rw| | |exact Ad1|exact Ad2]; intros s Hin; clear - Hin; cbn in Hin |- *; tauto.
Qed.
End ChargeRun.
