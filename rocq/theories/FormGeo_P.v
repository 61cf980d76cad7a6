(** Formulas in all coordinate systems. *)
From Coq Require Import Permutation Bool.
From Verif Require Import Alg Alg_P Arr Arr_P Spec UtilsM Utils_P Arr2_P Act_P RL_P Tensor_P TensorM WorldM SpecWorld World_P Registry_P History_P Geo_P CalcM SpecCalc Calc_P Calc2_P Trace_P Run_P CurvM SpecCurv SpecChange SpecForm Form_P Form2_P Norm_P CurvRun_P Curv_P CurvCov_P CurvCov2_P CurvCov3_P CurvCov4_P Along_P Label_P FormVal_P FormVal2_P FormRun_P FormRun2_P FormTop_P FormCov_P.
Local Open Scope K_scope.

Section Geo.
Context {A : AlgOps} {L : AlgLaws A} {DL : DiffLaws A} {SL : SubsLaws A} {IL : InvLaws A}.
Add Ring Kring : kring (setoid keq_equiv kring_ext).
Variables (G : geometry) (conf : oid -> list Z) (T : oid -> oid -> list nat -> K) (p : formula).
Hypothesis HC : consistent G.
Hypothesis HR : regular G.
Hypothesis W : well_formed conf p.
Hypothesis Tn : tensorial p.
Hypothesis Ow : algebraic p \/ own_coordinates G conf T p.
Hypothesis Kf : constant_factors G p.
Hypothesis HT : forall t, In t (leaves p) -> consistent (with_tensor G (length (conf t)) (T t)).
Notation n := (g_n G).

Theorem consistent_formula q : Permutation (free_syms p) q -> consistent (with_tensor G (length q) (geo_formula G conf T p q)).
Proof.
  intros Hp. apply regular_tensor; [exact HC|exact HR|]. intros c c' R J Ji C Hc Er EJ.
  apply (law_moved G HR c c' R J Ji C Hc Er EJ). apply (law_act G HR c c' R J Ji C Hc Er EJ).
  assert (HX := edge_change G HR c c' R Hc Er). assert (HM := edge_metric G HC HR c c' R J Ji C Hc Er EJ).
  assert (Hg := metric_change_fun _ _ _ _ _ _ _ _ _ _ _ HX EJ HM). destruct HM as (H1 & H2 & H3 & H4 & _).
  assert (Hn : (1 <= n)%nat) by apply HC.
  assert (Nf := FormVal2_P.free_nodup n conf (fun t => T t c) p W). assert (Nq : NoDup q) by (eapply Permutation_NoDup; eauto).
  intros idx Hi. set (f := assign q idx (fun _ => 0%nat)).
  assert (Of : ok n f).
  { intros x. unfold f, assign. destruct (index_of String.eqb x q) as [j|] eqn:Ej; [|lia]. destruct Hi as [Li Hi]. apply (proj1 (Forall_forall _ _) Hi). apply nth_In.
    apply spos_some in Ej as [Ej _]. rewrite Li. apply nth_error_Some. congruence. }
  unfold geo_formula at 1, covariant_components. fold f.
  assert (Dv := value_dep n (SpecWorld.g_G G c) (g_Gi G c) conf (g_syms G c) (fun t => T t c) p W).
  rewrite (value_moves n (subs_seq R) (mtr (mfun J)) conf (g_syms G c) (g_syms G c') (SpecWorld.g_G G c) (g_Gi G c) (SpecWorld.g_G G c') (g_Gi G c') (fun t => T t c) (fun t => T t c')); try assumption.
  - rewrite (alongs_move n (mtr (mfun J)) (free_syms p) q); [|exact Of| |exact Nf|exact Hp].
    2:{ eapply dep_pure, s_pure; [apply hom_subs_seq|exact Dv]. }
    replace (map (fun y : string => (y, mtr (mfun J))) q) with (combine q (repeat (mtr (mfun J)) (length q))).
    2:{ clear. induction q as [|y q IH]; [reflexivity|]. cbn [length repeat combine map]. rewrite IH. reflexivity. }
    rewrite <- lifted_alongs; [|exact Nq|apply repeat_length|eapply dep_pure, s_pure; [apply hom_subs_seq|exact Dv]|exact Of].
    unfold lifted. assert (Em : map f q = idx) by (apply assign_map; [exact Nq|apply Hi]). rewrite Em. unfold act. apply lsum_ext. intros ks _. apply kmul_proper; [reflexivity|].
    apply (hom_proper _ (hom_subs_seq R)). unfold geo_formula, covariant_components. apply Dv. intros x Hx. apply assign_inside. apply (Permutation_in x Hp), Hx.
  - apply hom_subs_seq.
  - intros a b Ha Hb. assert (E := c_inverse_back n (g_syms G c) (g_syms G c') R J Ji C (SpecWorld.g_G G c) (g_Gi G c) (SpecWorld.g_G G c') (g_Gi G c') HX EJ H2 H3 Hg a b Ha Hb).
    unfold hmat in E. rewrite <- E. unfold mcomp, mtr. apply nsum_ext. intros k _. rewrite <- nsum_scale. apply nsum_ext. intros l _. ring.
  - intros e k Hk He. rewrite (c_chain n (g_syms G c) (g_syms G c') R J Ji C HX EJ e k Hk He). apply nsum_ext. intros m _. reflexivity.
  - intros l a b Hl Ha Hb. exact (c_dgi n (g_syms G c) (g_syms G c') R (SpecWorld.g_G G c) (g_Gi G c) HX H2 H4 l a b Hl Ha Hb).
  - destruct Ow as [Al|Oc]; [left; exact Al|right]. destruct (Oc c c' R Hc Er) as [O1 O2]. intros l Hl.
    assert (Hy : In (cx (g_syms G c') l) (g_syms G c')) by (destruct HX as (_ & _ & Ly & _); apply nth_In; lia).
    split; [intros t ks Ht Hks; apply (O1 t Ht); assumption|intros k Hk; apply O2; assumption].
  - intros k Hk. apply (Kf c c' R k Hc Er Hk).
  - intros t ks Ht Hks. destruct (HT t Ht) as (_ & _ & HE). destruct (HE c c' R Hc Er) as (_ & _ & Lw & _).
    exact (proj2 (law_act G HR c c' R J Ji C Hc Er EJ (length (conf t)) (T t c) (T t c')) Lw ks Hks).
Qed.

Variables (m c : oid) (name : string) (w : world).
Hypothesis Hc : g_sys G c.
Hypothesis HS : metric_session w n m c name (g_syms G c) (SpecWorld.g_G G c) (g_Gi G c).
Hypothesis HM : metric_represents G m w.
Hypothesis Ht : forall k, g_sys G k -> ~ named w "TEMP" k.
Hypothesis Hl : forall t, In t (leaves p) -> operand w n m c (SpecWorld.g_G G c) (g_Gi G c) t (conf t) (with_indices G c (conf t) (T t c)).

Theorem formula_everywhere nm sy req i' : nm <> "TEMP"%string -> req = [] \/ Permutation (free_syms p) req ->
  let order := match req with [] => free_syms p | _ => req end in
  same_indices (free_syms p) (free_cfg conf p) order i' ->
  exists t w', (let! x := eval p in run_calc x nm sy req) w = (Ok t, w') /\
    represents (with_tensor G (length order) (geo_formula G conf T p order)) t m w' /\
    forall ops c' j a w'', Forall (history_op m) ops -> get_components t (Some c') (Some j) (after ops w') = (Ok a, w'') ->
      holds n (length order) a (with_indices G c' j (geo_formula G conf T p order c')).
Proof.
  intros Hnm Hreq order Hi.
  destruct (calc_core n m c name (g_syms G c) (SpecWorld.g_G G c) (g_Gi G c) conf (fun t => T t c) p nm sy req i' w HS W Hl Hnm Hreq Hi)
    as (t & w' & o & E & Nt & It & Ho & _ & _ & Kt & Op & S' & _ & Fr & (b & Eb) & Em & _).
  assert (Hp : Permutation (free_syms p) order) by (unfold order; destruct Hreq as [->|H]; [apply Permutation_refl|]; destruct req; [apply Permutation_refl|exact H]).
  fold order in Op. exists t, w'. split; [exact E|].
  apply (everywhere G m c Hc (length order) (geo_formula G conf T p order) i' (components_in conf n (g_syms G c) (SpecWorld.g_G G c) (g_Gi G c) (fun t => T t c) p order i') w w' t o).
  - apply consistent_formula, Hp.
  - exact HM.
  - apply S'.
  - destruct HM as (_ & Cm & _ & HG). split; [exact Em|]. split; [rewrite Cm; apply S'|]. intros k Hk. destruct (HG k Hk) as (Ck & ok & Hok & _).
    destruct Fr as [Fr _]. destruct (Fr k ok Hok) as (K1 & _ & ok' & Hok' & Eok & _); [intros En; apply (Ht k Hk); exists ok; auto|].
    split; [|exact K1]. rewrite Hok, Hok'. f_equal. apply Eok. intros Hin. destruct (Hl k Hin) as ((kk & oo & aa & X1 & X2 & _) & _). congruence.
  - apply Op.
  - apply Hi.
  - apply Op.
  - exact Ho.
  - exact Kt.
  - subst o. exists c, b. reflexivity.
  - intros idx _. reflexivity.
Qed.
End Geo.
