(** The covariant derivative of the result of a formula, as computed. *)
From Coq Require Import Permutation Bool.
From Verif Require Import Alg Alg_P Arr Arr_P Spec UtilsM Utils_P Arr2_P Act_P RL_P Tensor_P TensorM WorldM SpecWorld World_P Registry_P CalcM SpecCalc Keep_P Calc_P Calc2_P Calc3_P Calc4_P Trace_P Run_P CurvM SpecCurv SpecForm SpecCov SpecHead Form_P Form2_P CurvRun_P Norm_P Scalar_P Along_P Label_P FormVal_P FormVal2_P FormRun_P FormRun2_P FormCov_P FormTop_P Cov4_P Deriv_P RaiseCov_P Leib_P.
From Verif Require Import SpecHead SpecLeib SpecForm.
Local Open Scope nat_scope.

Section LeibRun.
Context {A : AlgOps} {L : AlgLaws A} {DL : DiffLaws A}.
Variables (n : nat) (m c : oid) (name : string) (xs : list string) (g gi : nat -> nat -> K).
Variables (conf : oid -> list Z) (T : oid -> list nat -> K).
Notation session w := (metric_session w n m c name xs g gi).
Notation known w := (known_results n xs g gi w m c name).
Notation raised t := (act n (map (conv g gi (-1)%Z) (conf t)) (T t)).
Notation opd w := (operand w n m c g gi).
Notation comps := (components_in conf n xs g gi T).
Notation cfg := (free_cfg conf).
Notation val := (value conf n xs g gi T).

Lemma value_grows w w' j i f o o' : cls_of w' j = cls_of w j -> obj_of w j = Some o -> obj_of w' j = Some o' -> same_attrs o o' ->
  (forall c d i a, dget Nat.eqb c (o_comps o) = Some d -> dget cfg_eqb i d = Some a ->
     exists d', dget Nat.eqb c (o_comps o') = Some d' /\ dget cfg_eqb i d' = Some a) ->
  tensor_value w n m c j i f -> tensor_value w' n m c j i f.
Proof.
  intros Hk Ho Ho' (E1 & E2 & E3 & E4 & E5 & E6 & _) Gr (k & o1 & a & Ck & Nk & Ho1 & Mo & Ei & Er & (Co & d & Hd & Ha) & Hh).
  rewrite Ho in Ho1. injection Ho1 as <-. destruct (Gr c d (o_indices o) a Hd Ha) as (d' & Hd' & Ha').
  exists k, o', a. split; [congruence|]. split; [exact Nk|]. split; [exact Ho'|]. split; [congruence|]. split; [congruence|]. split; [congruence|].
  split; [|exact Hh]. split; [congruence|]. exists d'. split; [exact Hd'|]. congruence.
Qed.

(** The derivative of the components in any configuration *)
Lemma derived_cov p k idx : symmetric_fun n g -> inverse_fun n g gi -> 1 <= n -> well_formed conf p -> algebraic p -> valid_cfg (cfg p) ->
  k < n -> in_range n (length (cfg p)) idx ->
  keq (covariant_of n (cx xs) (Gam n xs g gi) (cfg p) (comps p (free_syms p) (cfg p)) k idx)
    (nabla_components conf n xs g gi T p (free_syms p) (cfg p) (k :: idx)).
Proof.
  intros Sg Ig Hn W Al Vi Hk Hx. set (s := free_syms p). assert (Ns : NoDup s) by exact (FormVal2_P.free_nodup n conf T p W).
  assert (Ls : length (cfg p) = length s) by exact (FormVal2_P.free_length n conf T p W).
  assert (Vr : valid_cfg (repeat (-1)%Z (length s))) by (apply Forall_forall; intros z Hz; apply repeat_spec in Hz; auto).
  set (V := covariant_components conf n xs g gi T p s).
  assert (R := raise_covariant n (cx xs) g gi Sg Ig (repeat (-1)%Z (length s)) (cfg p) V k idx Vr Vi). rewrite repeat_length in R.
  specialize (R (eq_sym Ls) Hk). rewrite <- Ls in R at 1. specialize (R Hx).
  unfold converted in R. rewrite !(cv_combine g gi (length s) (cfg p) Ls) in R.
  unfold nabla_components, components_in. cbn [nth tl]. fold s. fold V.
  etransitivity; [exact R|]. destruct Hx as [Lx Rx]. apply act_ext; [rewrite map_length; congruence|exact Rx|]. intros ks Lk Rk.
  assert (Em : map (assign s ks (fun _ => 0)) s = ks) by (apply assign_map; [exact Ns|congruence]).
  set (f := assign s ks (fun _ => 0)) in *.
  assert (Of : ok n f).
  { intros y. destruct (in_dec string_dec y s) as [Hy|Hy].
    - apply (proj1 (Forall_forall _ _) Rk). rewrite <- Em. apply in_map, Hy.
    - unfold f, assign. change (index_of String.eqb y s) with (spos y s). rewrite (proj2 (spos_none y s) Hy). lia. }
  rewrite <- Em. rewrite <- (cvl_tensor n (cx xs) g gi String.eqb String.eqb_spec s V k f Ns).
  rewrite <- (derived_value n xs g gi conf T Sg Ig p W Al k f Hk Of). fold s.
  apply cvl_ext; [exact Of|]. intros h Oh. unfold V, covariant_components.
  apply (value_dep n g gi conf xs T p W). intros y Hy.
  assert (Eh : map (assign s (map h s) (fun _ => 0)) s = map h s) by (apply assign_map; [exact Ns|apply map_length]).
  exact (proj1 (map_ext_in_iff) Eh y Hy).
Qed.

Theorem formula_derivative letters p nm a w : session w -> known w -> well_formed conf p -> algebraic p ->
  (forall t, In t (leaves p) -> opd w t (conf t) (raised t)) ->
  nm <> "TEMP"%string -> ~ In nm (curvature_names name) -> ~ In a (free_syms p) -> free_letters letters (a :: free_syms p) ->
  exists z w' b, (let! x := eval p in let! t := run_calc x nm "" [] in derivative_of letters a t (free_syms p)) w = (Ok z, w') /\
    result_is w' z (a :: free_syms p) m c (-1 :: cfg p)%Z b /\
    holds n (S (length (cfg p))) b (nabla_components conf n xs g gi T p (free_syms p) (cfg p)) /\
    session w' /\ known w' /\ only_adds_and_grows (leaves p) ["TEMP"; nm; (name ++ " Christoffel")]%string w w'.
Proof.
  intros HS Ka W Al Hl Nn Nc Na Fl.
  assert (Ns := FormVal2_P.free_nodup n conf T p W). assert (Ls := FormVal2_P.free_length n conf T p W).
  destruct (calc_core n m c name xs g gi conf T p nm ""%string [] (cfg p) w HS W Hl Nn (or_introl eq_refl)) as (t & w1 & o & E & Nw & It & Ho & En & Ey & Hk & Op & S1 & Kp & (F1 & F2) & _ & _ & F3).
  { split; [exact Ls|]. split; [exact Ls|]. tauto. }
  assert (K1 : known w1).
  { apply known_all_spec. apply known_all_spec in Ka. intros s i h H j Hj (oj & Hoj & Ej).
    assert (Nt := suffix_not_temp name s (results_length n xs g gi _ _ _ H)). assert (Nu := curvature_names_in n name xs g gi _ _ _ _ H Nc).
    destruct (F3 j oj Hj Hoj) as [->|[Et|(o0 & H0 & Sa)]].
    - rewrite Ho in Hoj. injection Hoj as <-. congruence.
    - congruence.
    - assert (E0 : o_name o0 = (name ++ s)%string) by (destruct Sa as [Sa _]; congruence).
      destruct (F1 j o0 H0) as (B1 & B2 & o' & B3 & _ & B5 & B6); [congruence|].
      assert (Hw : In j (insts w)).
      { destruct (F2 j Hj) as [H1|[->|(o2 & H2 & H3)]]; [exact H1|congruence|congruence]. }
      eapply value_grows; [exact B1|exact H0|exact B3|exact B5|exact B6|]. apply (Ka s i h H j Hw). exists o0. auto. }
  assert (Nt : ~ named w1 "TEMP" t) by (intros (o' & Ho' & E'); congruence).
  destruct Op as (Vt & _ & Vi & _).
  assert (Na' : NoDup (a :: free_syms p)) by (constructor; assumption).
  destruct (gradient_value_with n m c name xs g gi letters w1 t (cfg p) _ (free_syms p) a S1 K1 Vt Nt Vi Na' (eq_sym Ls) Fl) as (z & w2 & b & E2 & Rz & Hb & Ad & S2 & K2).
  exists z, w2, b. split.
  { unfold mbind in E |- *. destruct (eval p w) as [[x|e] wx]; [|discriminate E]. rewrite E. exact E2. }
  split; [exact Rz|]. split; [|split; [exact S2|split; [exact K2|]]].
  - destruct Hb as (Cb & Rb & Vb). split; [exact Cb|]. split; [exact Rb|]. intros idx Hx. rewrite (Vb idx Hx).
    destruct Hx as [Lx Rx]. destruct idx as [|k idx]; [discriminate Lx|]. inversion Rx as [|? ? Hk' Rx']; subst. cbn [nth tl].
    destruct (Deriv_P.session_sym n m c name xs g gi w1 S1) as [Sg Ig].
    apply derived_cov; try assumption; [apply (session_n n m c name xs g gi w1 S1)|]. split; [cbn in Lx; congruence|exact Rx'].
  - destruct Ad as [A1 A2]. split.
    + intros j oj Hoj No. destruct (F1 j oj Hoj No) as (B1 & B2 & o' & B3 & B4 & B5 & B6).
      assert (No' : o_name o' <> "TEMP"%string) by (destruct B5 as [-> _]; exact No). destruct (A1 j o' B3 No') as (D1 & D2 & D3).
      split; [congruence|]. split; [auto|]. exists o'. auto.
    + intros j Hj. destruct (A2 j Hj) as [[Hj1 Hj2]|(s & Hs & Hj1)].
      * destruct (F2 j Hj1) as [Hj3|[->|Hj3]]; [auto| |]; right.
        -- exists nm. split; [cbn; auto|]. destruct (A1 t o Ho) as (D1 & _); [congruence|]. exists o. auto.
        -- exists "TEMP"%string. split; [cbn; auto|]. destruct (obj_of w2 j) as [o2|] eqn:E3; [|exfalso; destruct S2 as (_ & [[_ R] _] & _); exact (R j Hj E3)].
           destruct Hj3 as (o3 & Ho3 & E3'). rewrite (Hj2 o2 eq_refl) in Ho3. injection Ho3 as <-. exists o2. auto.
      * right. exists s. split; [|exact Hj1]. cbn in Hs |- *. tauto.
Qed.
End LeibRun.
