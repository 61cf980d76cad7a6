(** The Euler-Lagrange equations of the Lagrangian. *)
From Verif Require Import Alg Alg_P Spec TensorM CurvRun_P Curv_P GeodM SpecGeod.
From Verif Require Import Arr Arr_P UtilsM WorldM SpecWorld World_P Registry_P CalcM SpecCalc Keep_P Calc_P Calc2_P Calc3_P Calc4_P Trace_P Run_P CurvM SpecCurv Form_P Form2_P CurvRun2_P Geod_P Geod2_P.
Local Open Scope K_scope.

Section Euler.
Context {A : AlgOps} {L : AlgLaws A} {D : DiffLaws A} {Y : SymLaws A}.
Add Ring Kring : kring (setoid keq_equiv kring_ext).
Variables (p : string) (n : nat) (xs : list string) (g gi : nat -> nat -> K).
Hypothesis Hs : symmetric_fun n g.
Hypothesis Hinv : inverse_fun n g gi.
Hypothesis Lx : length xs = n.
Hypothesis Hst : static_along p n xs g.
Notation x := (cx xs).
Notation v := (cvel xs).
Notation a := (cacc xs).

Lemma cx_in k : (k < n)%nat -> In (x k) xs.
Proof. intros Hk. apply nth_In. lia. Qed.
Lemma app_dot_inj s t : (s ++ "dot" = t ++ "dot")%string -> s = t.
Proof.
  revert t. induction s as [|b s IH]; intros [|b' t] E; cbn in E.
  - reflexivity.
  - exfalso. assert (Hl := f_equal String.length E). cbn in Hl. rewrite append_length in Hl. cbn in Hl. lia.
  - exfalso. assert (Hl := f_equal String.length E). cbn in Hl. rewrite append_length in Hl. cbn in Hl. lia.
  - injection E as -> E. rewrite (IH t E). reflexivity.
Qed.
Lemma dot_v k j : (k < n)%nat -> (j < n)%nat -> kdiff (dot (x k)) (v j) == kdelta k j.
Proof.
  intros Hk Hj. unfold kdelta. change (v j) with (ksym (dot (x j))). destruct (Nat.eqb_spec k j) as [->|N]; [apply kdiff_sym_same|].
  apply kdiff_sym_other. intros E. apply app_dot_inj in E. apply N. destruct Hst as (Nd & _). unfold cx in E.
  apply (proj1 (NoDup_nth xs ""%string) Nd k j); [lia|lia|exact E].
Qed.
Lemma x_v k j : (k < n)%nat -> (j < n)%nat -> kdiff (x k) (v j) == k0.
Proof. intros Hk Hj. apply kdiff_sym_other. destruct Hst as (_ & _ & H & _). apply H; apply cx_in; assumption. Qed.
Lemma dot_g k i j : (k < n)%nat -> (i < n)%nat -> (j < n)%nat -> kdiff (dot (x k)) (g i j) == k0.
Proof. intros Hk Hi Hj. destruct Hst as (_ & _ & _ & H). apply H; try assumption. apply cx_in, Hk. Qed.

Lemma nsum_xs (f : string -> K) : lsum xs f == nsum n (fun l => f (x l)).
Proof.
  assert (E : xs = map x (seq 0 n)).
  { clear - Lx. subst n. unfold cx. clear. induction xs as [|y l IH]; [reflexivity|]. cbn [length seq map]. f_equal. rewrite <- seq_shift, map_map. exact IH. }
  rewrite E at 1. rewrite lsum_map. reflexivity.
Qed.

(** dL/dv^k *)
Lemma momentum l k : l == kinvn 2 * Lag n xs g -> (k < n)%nat -> kdiff (dot (x k)) l == nsum n (fun j => g k j * v j).
Proof.
  intros Hl Hk. rewrite (kdiff_proper _ _ _ Hl), kdiff_halved. unfold Lag, lagrangian_of. rewrite kdiff_nsum.
  transitivity (kinvn 2 * nsum n (fun i => nsum n (fun j => kdelta k i * (g i j * v j) + g i j * v i * kdelta k j))).
  { apply kmul_proper; [reflexivity|]. apply nsum_ext. intros i Hi. rewrite kdiff_nsum. apply nsum_ext. intros j Hj.
    rewrite !kdiff_mul, dot_g, !dot_v by assumption. ring. }
  transitivity (kinvn 2 * (nsum n (fun j => g k j * v j) + nsum n (fun j => g k j * v j))); [|apply half_double].
  apply kmul_proper; [reflexivity|].
  transitivity (nsum n (fun i => kdelta k i * nsum n (fun j => g i j * v j) + g k i * v i)).
  { apply nsum_ext. intros i Hi. rewrite nsum_add, nsum_scale. rewrite (nsum_delta_r' n k (fun j => g i j * v i)) by exact Hk.
    rewrite (Hs i k) by assumption. reflexivity. }
  rewrite nsum_add. rewrite (nsum_delta_l n k (fun i => nsum n (fun j => g i j * v j))) by exact Hk. reflexivity.
Qed.

Lemma filter_all : filter (fun y => negb (String.eqb y p)) xs = xs.
Proof.
  destruct Hst as (_ & Hp & _). clear - Hp. induction xs as [|y l IH]; [reflexivity|]. cbn [filter].
  destruct (String.eqb_spec y p) as [->|]; [exfalso; apply Hp; left; reflexivity|]. cbn [negb]. rewrite IH; [reflexivity|]. intros H. apply Hp. right; exact H.
Qed.

Lemma euler_value l k : l == kinvn 2 * Lag n xs g -> (k < n)%nat -> euler_lagrange p xs l (x k) == Geo_lowered n xs g gi k.
Proof.
  intros Hl Hk. unfold euler_lagrange.
  destruct (String.eqb_spec (x k) p) as [E|_]; [exfalso; destruct Hst as (_ & Hp & _); apply Hp; rewrite <- E; apply cx_in, Hk|].
  rewrite filter_all. unfold total.
  assert (Hm := momentum l k Hl Hk).
  assert (E0 : (if existsb (fun d => String.eqb (fst d) p) (ddots xs) then k0 else kdiff p (kdiff (dot (x k)) l)) == k0).
  { destruct (existsb _ (ddots xs)) eqn:Ex; [reflexivity|]. rewrite (kdiff_proper _ _ _ Hm), kdiff_nsum. apply nsum_zero'. intros j Hj.
    rewrite kdiff_mul. destruct Hst as (_ & _ & _ & H). rewrite (proj1 (H k j Hk Hj)).
    assert (Hv : kdiff p (v j) == k0).
    { apply kdiff_sym_other. intros E. apply not_true_iff_false in Ex. apply Ex. apply existsb_exists. exists (dot (x j), ddot (x j)).
      split; [apply in_app_iff; right; apply in_map_iff; exists (x j); split; [reflexivity|apply cx_in, Hj]|]. cbn [fst]. apply String.eqb_eq. symmetry. exact E. }
    rewrite Hv. ring. }
  rewrite E0. clear E0. unfold ddots, dots. rewrite lsum_app, !lsum_map. cbn [fst snd]. rewrite !nsum_xs.
  assert (A1 : nsum n (fun q => kdiff (x q) (kdiff (dot (x k)) l) * ksym (dot (x q))) == nsum n (fun i => nsum n (fun j => kdiff (x i) (g k j) * (v i * v j)))).
  { apply nsum_ext. intros q Hq. rewrite (kdiff_proper _ _ _ Hm), kdiff_nsum, <- nsum_scale_r. apply nsum_ext. intros j Hj.
    rewrite kdiff_mul, x_v by assumption. change (ksym (dot (x q))) with (v q). ring. }
  assert (A2 : nsum n (fun q => kdiff (dot (x q)) (kdiff (dot (x k)) l) * ksym (ddot (x q))) == nsum n (fun i => g k i * a i)).
  { apply nsum_ext. intros q Hq. rewrite (kdiff_proper _ _ _ Hm), kdiff_nsum.
    rewrite (nsum_ext n _ (fun j => kdelta q j * g k j)); [rewrite (nsum_delta_l n q (fun j => g k j)) by exact Hq; reflexivity|].
    intros j Hj. rewrite kdiff_mul, dot_g, dot_v by assumption. ring. }
  assert (A3 : kdiff (x k) l == kinvn 2 * nsum n (fun i => nsum n (fun j => kdiff (x k) (g i j) * (v i * v j)))).
  { rewrite (kdiff_proper _ _ _ Hl), kdiff_halved. apply kmul_proper; [reflexivity|]. unfold Lag, lagrangian_of. rewrite kdiff_nsum. apply nsum_ext. intros i Hi.
    rewrite kdiff_nsum. apply nsum_ext. intros j Hj. rewrite !kdiff_mul, !x_v by assumption. ring. }
  rewrite A1, A2, A3. clear A1 A2 A3 Hm.
  set (T := nsum n (fun i => nsum n (fun j => kdiff (x i) (g k j) * (v i * v j)))).
  set (U := nsum n (fun i => nsum n (fun j => kdiff (x k) (g i j) * (v i * v j)))).
  assert (T' : nsum n (fun i => nsum n (fun j => kdiff (x j) (g i k) * (v i * v j))) == T).
  { unfold T. rewrite nsum_swap. apply nsum_ext. intros i Hi. apply nsum_ext. intros j Hj. rewrite (kdiff_proper _ _ _ (Hs j k Hj Hk)). ring. }
  unfold Geo_lowered, Geo, geodesic_of.
  transitivity (nsum n (fun i => g k i * a i) + nsum n (fun i => nsum n (fun j => nsum n (fun s => g k s * Gam n xs g gi s i j) * (v i * v j)))).
  2:{ transitivity (nsum n (fun s => g k s * a s + g k s * nsum n (fun i => nsum n (fun j => Gam n xs g gi s i j * (v i * v j))))); [|apply nsum_ext; intros s _; ring].
      rewrite nsum_add. apply kadd_proper; [reflexivity|].
      transitivity (nsum n (fun i => nsum n (fun s => nsum n (fun j => g k s * Gam n xs g gi s i j * (v i * v j))))).
      - apply nsum_ext. intros i Hi. rewrite nsum_swap. apply nsum_ext. intros j Hj. rewrite <- nsum_scale_r. reflexivity.
      - rewrite nsum_swap. apply nsum_ext. intros s Hsn. rewrite <- nsum_scale. apply nsum_ext. intros i Hi. rewrite <- nsum_scale. apply nsum_ext. intros j Hj. ring. }
  assert (E : nsum n (fun i => nsum n (fun j => nsum n (fun s => g k s * Gam n xs g gi s i j) * (v i * v j))) == kinvn 2 * (T + T - U)).
  { transitivity (kinvn 2 * (T + nsum n (fun i => nsum n (fun j => kdiff (x j) (g i k) * (v i * v j))) - U)); [|rewrite T'; reflexivity].
    unfold T, U. rewrite <- nsum_add, <- nsum_sub, <- nsum_scale. apply nsum_ext. intros i Hi. rewrite <- nsum_add, <- nsum_sub, <- nsum_scale. apply nsum_ext. intros j Hj.
    unfold Gam. rewrite (Curv_P.g_G n (cx xs) g gi Hinv k i j Hk). unfold Gl. ring. }
  rewrite E. transitivity (nsum n (fun i => g k i * a i) + kinvn 2 * (T + T) - kinvn 2 * U); [rewrite half_double; ring|ring].
Qed.
End Euler.

Section Session.
Local Open Scope nat_scope.
Context {A : AlgOps} {L : AlgLaws A} {D : DiffLaws A} {C : CleanLaws A} {Y : SymLaws A}.
Variables (n : nat) (m c : oid) (name : string) (xs : list string) (g gi : nat -> nat -> K).
Notation session w := (metric_session w n m c name xs g gi).
Notation known_all := (known_all n m c name xs g gi).
Notation known_cs := (known_cs n m c name xs g gi).
Notation curves := (curves n xs g gi).
Notation cdone := (cdone n m c name xs g gi).

(** A new tensor, after which the temporary tensors are deleted. *)
Lemma publish_run w k nm a i' sy : session w -> nm <> "TEMP"%string -> cubic n a -> rank a = length i' -> valid_cfg i' ->
  exists t w', (let! t := make_tensor k nm a (Some m) (Some c) i' sy in pass (if_named "TEMP" (fun i => delete i true)) ;; mret t) w = (Ok t, w') /\
    good w' /\ adds m c [t] w w' /\ In t (insts w') /\ cls_of w' t = Some k /\ obj_of w' t = Some (tobj nm sy i' c m a).
Proof.
  intros HS Hnm Ca Ra Vi. assert (Gw := session_good w n m c name xs g gi HS).
  assert (HS' := HS). destruct HS' as (_ & _ & _ & _ & Hsys & Ic & Nc & _ & Hm & Im & Nm & _ & _ & om & G & Hom & _ & _ & _ & _ & (Cm & _) & _).
  set (wf := fresh_world w k (tobj nm sy i' c m a)).
  assert (Gf : good wf) by (apply good_fresh; try assumption; apply Hsys).
  destruct Gf as (Tf & If & Uf). destruct (passes_total 1 wf (proj1 If) Uf) as (w1 & E1 & R1 & Kl).
  assert (Ep : pass (if_named "TEMP" (fun i => delete i true)) wf = (Ok tt, w1)).
  { cbn [times] in E1. apply bind_inv in E1 as (u & w2 & E2 & E3). destruct u. unfold mret in E3. injection E3 as <-. exact E2. }
  assert (G1 := good_cleaned _ _ (conj Tf (conj If Uf)) Kl R1).
  assert (Ad := adds_fresh m c w k (tobj nm sy i' c m a) (proj1 (proj1 (proj2 Gw))) (tobj_refers _ _ _ _ _ _)). fold wf in Ad.
  assert (Ad' := adds_trans m c _ _ _ _ _ R1 Ad (adds_cleaned m c _ _ Kl)). cbn [app] in Ad'.
  destruct Kl as (Kh & Kc & Ks & Kb & Kf).
  destruct (Kf (length (heap w)) (tobj nm sy i' c m a) (obj_fresh_new _ _ _) Hnm) as [T1 T2].
  exists (length (heap w)), w1. split; [|split; [exact G1|split; [exact Ad'|split; [|split; [rewrite Kc; apply cls_fresh_new|exact T1]]]]].
  - rewrite (bind_ok _ _ _ _ _ (make_tensor_ok w k nm a m c i' sy n Hm Hsys Ca Vi (eq_sym Ra))). fold wf. rewrite (bind_ok _ _ tt wf w1 Ep). reflexivity.
  - apply T2. cbn [wf fresh_world insts]. apply in_app_iff. right; left; reflexivity.
Qed.

Lemma geodesic_lagrangian_done p w coords : session w -> known_all w -> known_cs w -> static_along p n xs g -> coords = None \/ coords = Some c ->
  cdone w [(name ++ " Lagrangian")%string; (name ++ " Geodesic From Lagrangian")%string] " Geodesic From Lagrangian" CGeodesic
    (calc_geodesic_lagrangian_with p m coords) [1]%Z (is_geodesic n (Geo_lowered n xs g gi)).
Proof.
  intros HS Ka Kc Hst Hco. unfold calc_geodesic_lagrangian_with.
  assert (Hin : In (" Geodesic From Lagrangian"%string, CGeodesic, [1]%Z, is_geodesic n (Geo_lowered n xs g gi)) curves) by (cbn; auto).
  apply (cached_curve_run n m c name xs g gi w coords _ _ _ _ _ _ HS Ka Kc Hin Hco).
  change [(name ++ " Lagrangian")%string; (name ++ " Geodesic From Lagrangian")%string] with ([(name ++ " Lagrangian")%string] ++ [(name ++ " Geodesic From Lagrangian")%string]).
  eapply cdone_chain; [exact HS|apply lagrangian_done; auto|]. clear w HS Ka Kc.
  intros l w h HS Ka Kc Il Ph V. apply (cdone_end n m c name xs g gi w _ _ _ _ _ Ka Kc Hin).
  destruct (r_read n m c name xs g gi w w l [] h HS (form_base w n m c name xs g gi HS) V eq_refl) as (a & w' & Ea & _ & _ & -> & (Ca & Ra & Va)).
  assert (HS' := HS). destruct HS' as (_ & _ & _ & _ & _ & _ & _ & (oc & Hoc & Es & Ls) & _ & _ & _ & Hsy & Hinv & _).
  unfold reach. rewrite (bind_ok _ _ a w w Ea). cbv zeta. rewrite (bind_ok _ _ oc w w) by (apply getobj_ok, Hoc). rewrite Es.
  set (e := fun x => clean (euler_lagrange p xs (kmul (kinvn 2) (aget a [])) x)). rewrite Ls.
  assert (Cb : cubic n (mkArr [n] (map e xs))) by (split; [unfold awf; cbn [shape data prodn]; rewrite map_length; lia|reflexivity]).
  destruct (publish_run w CGeodesic (name ++ " Geodesic From Lagrangian") (mkArr [n] (map e xs)) [1]%Z "0" HS) as (t & w' & E & G & Ad & It & Kt & Ot).
  { apply suffix_not_temp; cbn; lia. } { exact Cb. } { reflexivity. } { apply valid_cfgb_spec; reflexivity. }
  exists t, w'. split; [exact E|]. split; [exact G|]. split; [exact Ad|]. split; [exact It|]. split; [eexists; split; [exact Ot|reflexivity]|]. split; [exact Kt|].
  exists (aget (mkArr [n] (map e xs))). split.
  - intros k Hk. replace (aget (mkArr [n] (map e xs)) [k]) with (e (cx xs k)).
    2:{ unfold aget. cbn [shape data]. replace (offset [n] [k]) with k by (cbn; lia). rewrite (nth_indep _ _ (e ""%string)) by (rewrite map_length; lia). rewrite map_nth. reflexivity. }
    unfold e. apply clean_unit. apply euler_value; try assumption. apply kmul_proper; [reflexivity|]. rewrite (Va [] (conj eq_refl (Forall_nil _))). exact Ph.
  - exists CGeodesic, (tobj (name ++ " Geodesic From Lagrangian") "0" [1]%Z c m (mkArr [n] (map e xs))), (mkArr [n] (map e xs)).
    split; [exact Kt|]. split; [discriminate|]. split; [exact Ot|]. split; [reflexivity|]. split; [reflexivity|]. split; [reflexivity|]. split; [apply tobj_stored|].
    split; [exact Cb|]. split; reflexivity.
Qed.
End Session.
