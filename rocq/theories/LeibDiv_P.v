(** The covariant divergence of the result of a formula, as computed. *)
From Coq Require Import Permutation Bool.
From Verif Require Import Alg Alg_P Arr Arr_P Spec UtilsM Utils_P Arr2_P Act_P RL_P Tensor_P TensorM WorldM SpecWorld World_P Registry_P CalcM SpecCalc Keep_P Calc_P Calc2_P Calc3_P Calc4_P Trace_P Run_P CurvM SpecCurv SpecForm SpecCov SpecHead Form_P Form2_P CurvRun_P Norm_P Scalar_P Along_P Label_P FormVal_P FormVal2_P FormRun_P FormRun2_P FormCov_P FormTop_P Cov4_P Deriv_P RaiseCov_P Leib_P LeibRun_P.
From Verif Require Import SpecHead SpecLeib SpecForm.
Local Open Scope nat_scope.

Section LeibDiv.
Context {A : AlgOps} {L : AlgLaws A} {DL : DiffLaws A}.
Variables (n : nat) (m c : oid) (name : string) (xs : list string) (g gi : nat -> nat -> K).
Variables (conf : oid -> list Z) (T : oid -> list nat -> K).
Notation session w := (metric_session w n m c name xs g gi).
Notation known w := (known_results n xs g gi w m c name).
Notation raised t := (act n (map (conv g gi (-1)%Z) (conf t)) (T t)).
Notation opd w := (operand w n m c g gi).
Notation comps := (components_in conf n xs g gi T).
Notation cfg := (free_cfg conf).
Notation val := (value conf n xs g gi T).

Theorem formula_divergence letters p nm l1 a l2 w : session w -> known w -> well_formed conf p -> algebraic p ->
  (forall t, In t (leaves p) -> opd w t (conf t) (raised t)) ->
  nm <> "TEMP"%string -> ~ In nm (curvature_names name) -> NoDup (l1 ++ a :: l2) -> length (l1 ++ a :: l2) = length (cfg p) -> free_letters letters (l1 ++ a :: l2) ->
  exists z w' b, (let! x := eval p in let! t := run_calc x nm "" [] in derivative_of letters a t (l1 ++ a :: l2)) w = (Ok z, w') /\
    result_is w' z (l1 ++ l2) m c (firstn (length l1) (cfg p) ++ skipn (S (length l1)) (cfg p)) b /\
    holds n (length (l1 ++ l2)) b (nabla_divergence conf n xs g gi T p (length l1)) /\
    session w' /\ known w' /\ only_adds_and_grows (leaves p) ["TEMP"; nm; (name ++ " Christoffel")]%string w w'.
Proof.
  intros HS Ka W Al Hl Nn Nc Nl Ll Fl.
  assert (Ns := FormVal2_P.free_nodup n conf T p W). assert (Ls := FormVal2_P.free_length n conf T p W).
  destruct (calc_core n m c name xs g gi conf T p nm ""%string [] (cfg p) w HS W Hl Nn (or_introl eq_refl)) as (t & w1 & o & E & Nw & It & Ho & En & Ey & Hk & Op & S1 & Kp & (F1 & F2) & _ & _ & F3).
  { split; [exact Ls|]. split; [exact Ls|]. tauto. }
  assert (K1 : known w1).
  { apply known_all_spec. apply known_all_spec in Ka. intros s i h H j Hj (oj & Hoj & Ej).
    assert (Nt := suffix_not_temp name s (results_length n xs g gi _ _ _ H)). assert (Nu := curvature_names_in n name xs g gi _ _ _ _ H Nc).
    destruct (F3 j oj Hj Hoj) as [->|[Et|(o0 & H0 & Sa)]].
    - rewrite Ho in Hoj. injection Hoj as <-. congruence.
    - congruence.
    - assert (E0 : o_name o0 = (name ++ s)%string) by (destruct Sa as [Sa _]; congruence).
      destruct (F1 j o0 H0) as (B1 & B2 & o' & B3 & _ & B5 & B6); [congruence|].
      assert (Hw : In j (insts w)).
      { destruct (F2 j Hj) as [H1|[->|(o2 & H2 & H3)]]; [exact H1|congruence|congruence]. }
      eapply value_grows; [exact B1|exact H0|exact B3|exact B5|exact B6|]. apply (Ka s i h H j Hw). exists o0. auto. }
  assert (Nt : ~ named w1 "TEMP" t) by (intros (o' & Ho' & E'); congruence).
  destruct Op as (Vt & _ & Vi & _).
  destruct (divergence_value_with n m c name xs g gi letters w1 t (cfg p) _ l1 l2 a S1 K1 Vt Nt Vi Nl Ll Fl) as (z & w2 & b & E2 & Rz & Hb & Ad & S2 & K2).
  exists z, w2, b. split.
  { unfold mbind in E |- *. destruct (eval p w) as [[x|e] wx]; [|discriminate E]. rewrite E. exact E2. }
  split; [exact Rz|]. split; [|split; [exact S2|split; [exact K2|]]].
  - assert (Lc : length (firstn (length l1) (cfg p) ++ skipn (S (length l1)) (cfg p)) = length (l1 ++ l2)).
    { rewrite !app_length, firstn_length, skipn_length. rewrite <- Ll, app_length. cbn [length]. lia. }
    rewrite Lc in Hb. destruct Hb as (Cb & Rb & Vb). split; [exact Cb|]. split; [exact Rb|]. intros idx Hx. rewrite (Vb idx Hx).
    destruct (Deriv_P.session_sym n m c name xs g gi w1 S1) as [Sg Ig]. assert (Hn := session_n n m c name xs g gi w1 S1).
    assert (In1 : forall d, d < n -> in_range n (length (cfg p)) (inserted (length l1) d idx)).
    { intros d Hd. destruct Hx as [Lx Rx]. rewrite app_length in Lx. rewrite app_length in Ll. cbn [length] in Ll. split.
      - unfold inserted. rewrite app_length, firstn_length. cbn [length]. rewrite skipn_length. lia.
      - unfold inserted. rewrite <- (firstn_skipn (length l1) idx) in Rx. apply Forall_app in Rx as [R1 R2]. apply Forall_app. split; [exact R1|constructor; assumption]. }
    unfold divergence_of, nabla_divergence. destruct (nth (length l1) (cfg p) 0%Z =? 1)%Z.
    + apply nsum_ext. intros k Hk'. apply derived_cov; try assumption. apply In1, Hk'.
    + apply nsum_ext. intros k Hk'. apply nsum_ext. intros l Hl'. apply kmul_proper; [reflexivity|]. apply derived_cov; try assumption. apply In1, Hl'.
  - destruct Ad as [A1 A2]. split.
    + intros j oj Hoj No. destruct (F1 j oj Hoj No) as (B1 & B2 & o' & B3 & B4 & B5 & B6).
      assert (No' : o_name o' <> "TEMP"%string) by (destruct B5 as [-> _]; exact No). destruct (A1 j o' B3 No') as (D1 & D2 & D3).
      split; [congruence|]. split; [auto|]. exists o'. auto.
    + intros j Hj. destruct (A2 j Hj) as [[Hj1 Hj2]|(s & Hs & Hj1)].
      * destruct (F2 j Hj1) as [Hj3|[->|Hj3]]; [auto| |]; right.
        -- exists nm. split; [cbn; auto|]. destruct (A1 t o Ho) as (D1 & _); [congruence|]. exists o. auto.
        -- exists "TEMP"%string. split; [cbn; auto|]. destruct (obj_of w2 j) as [o2|] eqn:E3; [|exfalso; destruct S2 as (_ & [[_ R] _] & _); exact (R j Hj E3)].
           destruct Hj3 as (o3 & Ho3 & E3'). rewrite (Hj2 o2 eq_refl) in Ho3. injection Ho3 as <-. exists o2. auto.
      * right. exists s. split; [|exact Hj1]. cbn in Hs |- *. tauto.
Qed.
End LeibDiv.
