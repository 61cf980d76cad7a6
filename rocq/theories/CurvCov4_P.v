(** Curvature tensors of a session in other coordinates. *)
From Verif Require Import Alg Alg_P Arr Arr_P Arr2_P UtilsM Utils_P Spec Act_P TensorM RL_P Jac_P Tensor_P WorldM SpecWorld World_P Registry_P History_P Geo_P CalcM SpecCalc Calc_P Run_P CurvM SpecCurv Form_P Form2_P CurvRun_P CurvRun2_P Weyl2_P Curv2_P Norm_P SpecChange CurvCov3_P.
Local Open Scope nat_scope.

Section Fresh.
Context {A : AlgOps}.

(** *** Deletions leave the other objects alone *)
Definition dels (w w' : world) : Prop :=
  (forall j, cls_of w' j = cls_of w j) /\ forall j o, obj_of w' j = Some o -> obj_of w j = Some o.
Lemma dels_refl w : dels w w.
Proof. split; auto. Qed.
Lemma dels_trans w1 w2 w3 : dels w1 w2 -> dels w2 w3 -> dels w1 w3.
Proof. intros [a b] [c d]. split; [intros j; rewrite c; apply a|auto]. Qed.
Lemma delete_dels w t s r w' : delete t s w = (r, w') -> dels w w'.
Proof.
  unfold delete; cbv zeta. match goal with |- context [find ?f ?l] => destruct (find f l) as [j|] end.
  { destruct (obj_of w j), (obj_of w t); intros E; injection E as _ <-; apply dels_refl. }
  destruct (obj_of w t) as [o|] eqn:Ho.
  - destruct (nth_error (heap w) t) as [[k x]|] eqn:Eh.
    2:{ unfold obj_of in Ho. rewrite Eh in Ho. discriminate. }
    assert (G : forall ins, dels w (mkW (set_nth t (k, None) (heap w)) ins)).
    { intros ins. split; [intros i; eapply heap_clear_cls; eauto|]. intros i oi. rewrite (heap_clear_obj w t k x ins i Eh). destruct (t =? i); [discriminate|auto]. }
    destruct (index_of Nat.eqb t (insts w)); intros E; injection E as _ <-; apply G.
  - destruct s; [|intros E; injection E as _ <-; apply dels_refl].
    destruct (index_of Nat.eqb t (insts w)); intros E; injection E as _ <-; [split; auto|apply dels_refl].
Qed.
Lemma finish_dels r w u w' : finish_calc r w = (Ok u, w') -> dels w w'.
Proof.
  unfold finish_calc. intros E. apply bind_inv in E as (x & w1 & E1 & E2). eapply dels_trans; [|eapply delete_dels, E2].
  assert (C : cleaned w w1) by (eapply for_cleaned; [apply body_cleaned|exact E1]). destruct C as (_ & C1 & _ & C2 & _). split; assumption.
Qed.

(** *** A tensor that was made anew stores one entry *)
Definition single (i : list Z) (o : obj) : Prop := exists c a, o_comps o = [(c, [(i, a)])].
Definition fresh_result (i : list Z) (p : M oid) : Prop :=
  forall w t w' o, p w = (Ok t, w') -> obj_of w' t = Some o -> cls_of w' t = Some CTensor /\ single i o.

Lemma fresh_bind {X} i (p : M X) k : (forall x, fresh_result i (k x)) -> fresh_result i (mbind p k).
Proof. intros H w t w' o E Ho. apply bind_inv in E as (x & w1 & _ & E). exact (H x w1 t w' o E Ho). Qed.
Lemma alloc_ok w k o i w' : alloc k o w = (Ok i, w') -> i = length (heap w) /\ w' = fresh_world w k o.
Proof. rewrite alloc_fresh. intros E. injection E as <- <-. auto. Qed.
Lemma fresh_publish i (m r x : oid) get name sy : fresh_result i (let! t := publish m r get name i sy in finish_calc x ;; mret t).
Proof.
  intros w t w' o E Ho. apply bind_inv in E as (t' & w1 & E1 & E2). apply bind_inv in E2 as (u & w2 & E2 & E3). injection E3 as -> ->.
  apply finish_dels in E2 as [D1 D2]. rewrite D1. apply D2 in Ho. clear D1 D2 w'.
  unfold publish in E1. apply bind_inv in E1 as (a & w3 & _ & E1). apply bind_inv in E1 as (om & w4 & _ & E1).
  unfold make_tensor, new_tensor_as in E1. apply bind_inv in E1 as (b & w5 & _ & E1). destruct b; cbn [negb] in E1; [|discriminate E1].
  destruct (o_coords om) as [c|]; [|discriminate E1]. unfold base_ctor in E1. apply bind_inv in E1 as (b & w6 & _ & E1). destruct b; cbn [negb] in E1; [|discriminate E1].
  apply bind_inv in E1 as (x' & w7 & _ & E1). apply bind_inv in E1 as (v & w8 & _ & E1). apply bind_inv in E1 as (a' & w9 & _ & E1).
  apply alloc_ok in E1 as [-> ->]. split; [apply cls_fresh_new|]. rewrite obj_fresh_new in Ho. injection Ho as <-. cbn [o_comps default_indices].
  exists c, a'. reflexivity.
Qed.
Lemma cached_fresh i (m : oid) s compute w t w' o : (forall nm, fresh_result i (compute nm)) ->
  cached m s compute w = (Ok t, w') -> ~ In t (insts w) -> obj_of w' t = Some o -> cls_of w' t = Some CTensor /\ single i o.
Proof.
  intros H E Nt Ho. unfold cached in E. apply bind_inv in E as (b & w1 & E1 & E). destruct b; cbn [negb] in E; [|discriminate E].
  assert (w1 = w) as ->. { unfold isinstance in E1. destruct (cls_of w m); injection E1 as _ <-; reflexivity. }
  apply bind_inv in E as (om & w1 & E2 & E). assert (w1 = w) as ->. { unfold getobj in E2. destruct (obj_of w m); [injection E2 as _ <-; reflexivity|discriminate E2]. }
  cbv zeta in E. apply bind_inv in E as (k & w1 & E3 & E). destruct k as [j|]; [|exact (H _ _ _ _ _ E Ho)].
  injection E as <- <-. destruct Nt. unfold find_named in E3.
  enough (G : forall l w2, first_named (o_name om ++ s) l w2 = (Ok (Some j), w1) -> In j l) by exact (G _ _ E3).
  induction l as [|x l IH]; intros w2 F; cbn [first_named] in F; [discriminate F|].
  apply bind_inv in F as (ox & w3 & _ & F). destruct (String.eqb _ _); [injection F as <- _; left; reflexivity|right; eapply IH, F].
Qed.

Lemma riemann_fresh m w t w' o : calc_riemann m w = (Ok t, w') -> ~ In t (insts w) -> obj_of w' t = Some o -> cls_of w' t = Some CTensor /\ single [1; -1; -1; -1]%Z o.
Proof. apply cached_fresh. intros nm. repeat first [apply fresh_publish|apply fresh_bind; intros ?]. Qed.
Lemma ricci_fresh m w t w' o : calc_ricci m w = (Ok t, w') -> ~ In t (insts w) -> obj_of w' t = Some o -> cls_of w' t = Some CTensor /\ single [-1; -1]%Z o.
Proof. apply cached_fresh. intros nm. repeat first [apply fresh_publish|apply fresh_bind; intros ?]. Qed.
Lemma scalar_fresh m w t w' o : calc_ricci_scalar m w = (Ok t, w') -> ~ In t (insts w) -> obj_of w' t = Some o -> cls_of w' t = Some CTensor /\ single [] o.
Proof. apply cached_fresh. intros nm. repeat first [apply fresh_publish|apply fresh_bind; intros ?]. Qed.
Lemma einstein_fresh m w t w' o : calc_einstein m w = (Ok t, w') -> ~ In t (insts w) -> obj_of w' t = Some o -> cls_of w' t = Some CTensor /\ single [-1; -1]%Z o.
Proof. apply cached_fresh. intros nm. repeat first [apply fresh_publish|apply fresh_bind; intros ?]. Qed.
Lemma weyl_fresh m w t w' o : calc_weyl m w = (Ok t, w') -> ~ In t (insts w) -> obj_of w' t = Some o -> cls_of w' t = Some CTensor /\ single [-1; -1; -1; -1]%Z o.
Proof. apply cached_fresh. intros nm. repeat first [apply fresh_publish|apply fresh_bind; intros ?]. Qed.
End Fresh.

Section Everywhere.
Context {A : AlgOps} {L : AlgLaws A} {DL : DiffLaws A} {SL : SubsLaws A} {IL : InvLaws A}.
Add Ring Kring : kring (setoid keq_equiv kring_ext).
Variables (G : geometry) (m c : oid) (name : string).
Hypothesis HC : consistent G.
Hypothesis HR : regular G.
Notation n := (g_n G).
Notation session w := (metric_session w n m c name (g_syms G c) (g_G G c) (g_Gi G c)).
Notation known w := (known_results n (g_syms G c) (g_G G c) (g_Gi G c) w m c name).
Hypothesis Hc : g_sys G c.

(** the metric and the coordinates are the same objects as before *)
Definition keeps (w w' : world) : Prop :=
  obj_of w' m = obj_of w m /\ cls_of w' m = cls_of w m /\
  forall k, g_sys G k -> obj_of w' k = obj_of w k /\ cls_of w' k = cls_of w k.

Lemma everywhere r T i h w w' t o : consistent (with_tensor G r T) -> metric_represents G m w -> typed w' -> keeps w w' ->
  valid_cfg i -> length i = r -> tensor_value w' n m c t i h -> obj_of w' t = Some o -> cls_of w' t = Some CTensor -> single i o ->
  (forall idx, in_range n r idx -> keq (h idx) (with_indices G c i (T c) idx)) ->
  represents (with_tensor G r T) t m w' /\
  forall ops c' j a w'', Forall (history_op m) ops -> get_components t (Some c') (Some j) (after ops w') = (Ok a, w'') ->
    holds n r a (with_indices G c' j (T c')).
Proof.
  intros HT (_ & Cm & (om & Hom & Mok) & HS) Ty (K1 & K2 & K3) Vi Li (k & o' & a & X1 & X2 & X3 & X4 & X5 & X6 & (X7 & d & X8 & X9) & X10) Ho Ct (c0 & a0 & Es) Hh.
  assert (o' = o) by congruence. subst o'.
  assert (RR : represents (with_tensor G r T) t m w').
  { split; [exact Ty|]. split; [exact Ct|]. split; [congruence|]. split; [|split].
    - exists o. split; [exact Ho|]. split; [exact X4|]. split; [cbn; congruence|]. rewrite X5. split; [exact Vi|]. split; [exact Li|].
      split; [exists c; auto|]. intros c1 d1 j b H1 H2. rewrite Es in *. cbn [dget] in H1, X8.
      destruct (Nat.eqb_spec c c0) as [->|N]; [|discriminate X8]. injection X8 as <-. rewrite X5 in X9. cbn [dget] in X9.
      destruct (cfg_eqb i i); [|discriminate X9]. injection X9 as ->.
      destruct (Nat.eqb_spec c1 c0) as [->|N]; [|discriminate H1]. injection H1 as <-. cbn [dget] in H2.
      destruct (cfg_eqb j i) eqn:Ej; [|discriminate H2]. injection H2 as <-. apply cfg_eqb_spec in Ej. subst j.
      split; [exact Hc|]. split; [exact Vi|]. split; [exact Li|]. rewrite Li in X10. eapply holds_ext; [|exact X10]. exact Hh.
    - exists om. split; [congruence|exact Mok].
    - intros q Hq. destruct (K3 q Hq) as [E1 E2]. rewrite E1, E2. exact (HS q Hq). }
  split; [exact RR|]. intros ops c' j b w'' Hops E. destruct (history_sound _ _ _ _ ops HT RR Hops) as (_ & H & _).
  exact (H c' j b w'' E).
Qed.

Lemma only_keeps w w' names : session w -> metric_represents G m w -> (forall k, g_sys G k -> ~ named w "TEMP" k) ->
  only_adds names w w' -> keeps w w'.
Proof.
  intros HS (_ & _ & _ & HG) Nt [H _].
  destruct HS as (_ & _ & _ & _ & _ & _ & _ & _ & _ & _ & Nm & _ & _ & om & Gm & Hom & _).
  destruct (H m om Hom) as (H1 & H2 & _); [intros E; apply Nm; exists om; auto|].
  split; [congruence|]. split; [exact H2|]. intros k Hk. destruct (HG k Hk) as (_ & ok & Hok & _).
  destruct (H k ok Hok) as (H3 & H4 & _); [intros E; apply (Nt k Hk); exists ok; auto|]. split; [congruence|exact H4].
Qed.

Lemma session_typed w : session w -> typed w.
Proof. intros H. apply H. Qed.

Lemma down_h r (f : list nat -> K) idx : in_range n r idx -> keq (f idx) (with_indices G c (repeat (-1)%Z r) f idx).
Proof. intros H. symmetry. exact (with_down G c r f idx H). Qed.

Lemma raised_h idx : in_range n 4 idx ->
  keq (at4 (Rie n (g_syms G c) (g_G G c) (g_Gi G c)) idx) (with_indices G c [1; -1; -1; -1]%Z (geo_riemann G c) idx).
Proof.
  intros Hi. assert (Hi' := Hi). destruct Hi' as [Hl Hr]. destruct idx as [|i [|j [|k [|l [|]]]]]; try discriminate Hl.
  inversion Hr as [|? ? Bi Hr1]; subst. unfold with_indices. cbn [map]. rewrite act_cons.
  transitivity (nsum n (fun p => kmul (g_Gi G c i p) (geo_riemann G c [p; j; k; l]))).
  - unfold geo_riemann, at4. cbn [nth]. unfold lowered. destruct HC as (_ & H & _). destruct (H c Hc) as (_ & [_ I2] & _).
    symmetry. transitivity (nsum n (fun q => nsum n (fun p => kmul (kmul (g_Gi G c i p) (g_G G c p q)) (Rie n (g_syms G c) (g_G G c) (g_Gi G c) q j k l)))).
    + rewrite (nsum_swap n n). apply nsum_ext. intros p _. rewrite <- nsum_scale. apply nsum_ext. intros q _. ring.
    + transitivity (nsum n (fun q => kmul (kdelta i q) (Rie n (g_syms G c) (g_G G c) (g_Gi G c) q j k l))).
      * apply nsum_ext. intros q Hq. rewrite <- (I2 i q Bi Hq). rewrite <- nsum_scale_r. reflexivity.
      * rewrite nsum_delta_l by exact Bi. reflexivity.
  - apply nsum_ext. intros p Hp. cbn [conv Z.eqb Pos.eqb]. apply kmul_proper; [reflexivity|]. symmetry.
    apply (act_id n _ (fun ks => geo_riemann G c (p :: ks)) [j; k; l]); [reflexivity|exact Hr1|]. repeat (apply Forall_cons; [intros x y _ _; reflexivity|]). apply Forall_nil.
Qed.

Section Run.
Variable w : world.
Hypothesis HS : session w.
Hypothesis HK : known w.
Hypothesis HM : metric_represents G m w.
Hypothesis HT : forall k, g_sys G k -> ~ named w "TEMP" k.

Lemma value_obj w' t i h : tensor_value w' n m c t i h -> exists o, obj_of w' t = Some o.
Proof. intros (k & o & a & _ & _ & H & _). eauto. Qed.

Lemma riemann_everywhere : gives_everywhere G (calc_riemann m) m 4 (geo_riemann G) w.
Proof.
  intros t w' E Nt. destruct (riemann_gives _ _ _ _ _ _ _ w HS HK) as (t' & w2 & E' & _ & V & Ad & S' & _).
  assert (t' = t) by congruence. assert (w2 = w') by congruence. subst t' w2. destruct (value_obj _ _ _ _ V) as [o Ho].
  destruct (riemann_fresh m w t w' o E Nt Ho) as [Ct Hs].
  apply (everywhere 4 (geo_riemann G) [1; -1; -1; -1]%Z (at4 (Rie n (g_syms G c) (g_G G c) (g_Gi G c))) w w' t o); auto.
  - apply consistent_riemann; assumption.
  - apply session_typed, S'.
  - eapply only_keeps; eassumption.
  - repeat (apply Forall_cons; [auto|]); apply Forall_nil.
  - exact raised_h.
Qed.
Lemma ricci_everywhere : gives_everywhere G (calc_ricci m) m 2 (geo_ricci G) w.
Proof.
  intros t w' E Nt. destruct (ricci_gives _ _ _ _ _ _ _ w HS HK) as (t' & w2 & E' & _ & V & Ad & S' & _).
  assert (t' = t) by congruence. assert (w2 = w') by congruence. subst t' w2. destruct (value_obj _ _ _ _ V) as [o Ho].
  destruct (ricci_fresh m w t w' o E Nt Ho) as [Ct Hs].
  apply (everywhere 2 (geo_ricci G) [-1; -1]%Z (at2 (Ric n (g_syms G c) (g_G G c) (g_Gi G c))) w w' t o); auto.
  - apply consistent_ricci; assumption.
  - apply session_typed, S'.
  - eapply only_keeps; eassumption.
  - exact (vdown 2).
  - exact (down_h 2 _).
Qed.
Lemma scalar_everywhere : gives_everywhere G (calc_ricci_scalar m) m 0 (geo_scalar G) w.
Proof.
  intros t w' E Nt. destruct (scalar_gives _ _ _ _ _ _ _ w HS HK) as (t' & w2 & E' & _ & V & Ad & S' & _).
  assert (t' = t) by congruence. assert (w2 = w') by congruence. subst t' w2. destruct (value_obj _ _ _ _ V) as [o Ho].
  destruct (scalar_fresh m w t w' o E Nt Ho) as [Ct Hs].
  apply (everywhere 0 (geo_scalar G) [] (fun _ => Sca n (g_syms G c) (g_G G c) (g_Gi G c)) w w' t o); auto.
  - apply consistent_scalar; assumption.
  - apply session_typed, S'.
  - eapply only_keeps; eassumption.
  - exact (vdown 0).
  - exact (down_h 0 _).
Qed.
Lemma einstein_everywhere : gives_everywhere G (calc_einstein m) m 2 (geo_einstein G) w.
Proof.
  intros t w' E Nt. destruct (einstein_gives _ _ _ _ _ _ _ w HS HK) as (t' & w2 & E' & _ & V & Ad & S' & _).
  assert (t' = t) by congruence. assert (w2 = w') by congruence. subst t' w2. destruct (value_obj _ _ _ _ V) as [o Ho].
  destruct (einstein_fresh m w t w' o E Nt Ho) as [Ct Hs].
  apply (everywhere 2 (geo_einstein G) [-1; -1]%Z (at2 (Ein n (g_syms G c) (g_G G c) (g_Gi G c))) w w' t o); auto.
  - apply consistent_einstein; assumption.
  - apply session_typed, S'.
  - eapply only_keeps; eassumption.
  - exact (vdown 2).
  - exact (down_h 2 _).
Qed.
Lemma weyl_everywhere : 3 <= n -> (forall j, In j (insts w) -> named w (name ++ " Ricci Tensor") j -> ~ used w j) ->
  gives_everywhere G (calc_weyl m) m 4 (geo_weyl G) w.
Proof.
  intros Hn Free t w' E Nt. assert (Ka := HK). apply known_all_spec in Ka.
  destruct (existsb (fun j => match obj_of w j with Some o => String.eqb (o_name o) (name ++ " Weyl Tensor") | None => false end) (insts w)) eqn:Ex.
  { exfalso. apply existsb_exists in Ex as (j & Hj & Ho). destruct (obj_of w j) as [o|] eqn:Eo; [|discriminate]. apply String.eqb_eq in Ho.
    unfold calc_weyl in E. edestruct (cached_known n m c name (g_syms G c) (g_G G c) (g_Gi G c) w " Weyl Tensor") as (k & E' & Ik & Nk); [exact HS|exact Hj|exists o; auto|].
    rewrite E' in E. injection E as <- <-. exact (Nt Ik). }
  destruct (weyl_run n m c name _ _ _ w HS Ka Hn) as (t' & ric & r & w2 & E' & S' & K' & It & _ & V & Or & _ & _ & _ & _ & _ & Fr & _ & Cr).
  { intros j Hj (o & Ho & En). rewrite (proj2 (existsb_exists _ _)) in Ex; [discriminate|]. exists j. split; [exact Hj|]. rewrite Ho. apply String.eqb_eq, En. }
  { exact Free. }
  assert (t' = t) by congruence. assert (w2 = w') by congruence. subst t' w2. destruct (value_obj _ _ _ _ V) as [o Ho].
  destruct (weyl_fresh m w t w' o E Nt Ho) as [Ct Hs].
  apply (everywhere 4 (geo_weyl G) [-1; -1; -1; -1]%Z (at4 (Wey n (g_syms G c) (g_G G c) (g_Gi G c))) w w' t o); auto.
  - apply consistent_weyl; assumption.
  - apply session_typed, S'.
  - destruct HM as (_ & _ & _ & HG). assert (HS0 := HS). destruct HS0 as (_ & _ & _ & _ & _ & _ & _ & _ & _ & _ & Nm & _ & _ & om & Gm & Hom & _).
    destruct S' as (_ & _ & _ & _ & _ & _ & _ & _ & _ & _ & _ & _ & _ & om' & Gm' & Hom' & _).
    destruct (Fr m om) as (H1 & H2 & _); [congruence|exact Hom|intros En; apply Nm; exists om; auto|].
    split; [congruence|]. split; [exact H2|]. intros k Hk. destruct (HG k Hk) as (Ck & ok & Hok & _).
    destruct (Nat.eq_dec k ric) as [->|Nk].
    + exfalso. apply (Cr ok Hok); [intros En; apply (HT ric Hk); exists ok; auto|exact Ck].
    + destruct (Fr k ok Nk Hok) as (H3 & H4 & _); [intros En; apply (HT k Hk); exists ok; auto|]. split; [congruence|exact H4].
  - exact (vdown 4).
  - exact (down_h 4 _).
Qed.
End Run.
End Everywhere.
