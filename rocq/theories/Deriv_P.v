(** Repeated covariant derivatives, the Ricci identity and the product rule, as computed. *)
From Verif Require Import Alg Alg_P Arr Arr_P Spec UtilsM Utils_P Act_P TensorM WorldM SpecWorld World_P Registry_P CalcM SpecCalc Keep_P Calc_P Calc2_P Calc3_P Calc4_P Trace_P Run_P CurvM SpecCurv SpecCov SpecDeriv Form_P Form2_P Curv_P CurvRun_P Cov_P Cov3_P Cov4_P CurvCov_P CovId_P RicciId_P RaiseCov_P.
Local Open Scope nat_scope.

Lemma NoDup_app_l {X} (l m : list X) : NoDup (l ++ m) -> NoDup l.
Proof. induction l as [|x l IH]; intros H; [constructor|]. inversion H as [|? ? H1 H2]; subst. constructor; [intros C; apply H1, in_or_app; auto|apply IH, H2]. Qed.
Lemma NoDup_app_r {X} (l m : list X) : NoDup (l ++ m) -> NoDup m.
Proof. induction l as [|x l IH]; intros H; [exact H|]. inversion H as [|? ? H1 H2]; subst. apply IH, H2. Qed.

Section Deriv.
Context {A : AlgOps} {L : AlgLaws A} {D : DiffLaws A}.
Add Ring Kring : kring (setoid keq_equiv kring_ext).
Variables (n : nat) (m c : oid) (name : string) (xs : list string) (g gi : nat -> nat -> K).
Notation session w := (metric_session w n m c name xs g gi).
Notation known w := (known_results n xs g gi w m c name).
Notation value w := (tensor_value w n m c).
Notation Gam := (Gam n xs g gi).
Notation yields := (yields n xs g gi).
Notation makes := (makes n xs g gi).

Lemma only_adds_then l1 l2 l w1 w2 w3 : registry_ok w3 -> incl l1 l -> incl l2 l -> only_adds l1 w1 w2 -> only_adds l2 w2 w3 -> only_adds l w1 w3.
Proof.
  intros [_ R] I1 I2 (a1 & a2) (b1 & b2). split.
  - intros j o Ho Hn. destruct (a1 j o Ho Hn) as (H1 & H2 & H3). destruct (b1 j o H1 Hn) as (H4 & H5 & H6). split; [exact H4|]. split; [congruence|auto].
  - intros j Hj. destruct (b2 j Hj) as [[H1 H2]|(s & Hs & H)]; [|right; exists s; auto].
    destruct (obj_of w3 j) as [o|] eqn:Eo; [|exfalso; exact (R j Hj Eo)]. specialize (H2 o eq_refl).
    destruct (a2 j H1) as [[H3 H4]|(s & Hs & o' & Ho' & E)].
    + left. split; [exact H3|]. intros o' [= <-]. auto.
    + right. exists s. split; [auto|]. exists o. split; [exact Eo|congruence].
Qed.

Lemma curvature_names_in s i h nm : In (s, i, h) (results n xs g gi) -> ~ In nm (curvature_names name) -> nm <> (name ++ s)%string.
Proof.
  intros H Hn ->. apply Hn. unfold curvature_names. apply in_map_iff. exists s. split; [reflexivity|].
  cbn in H. repeat (destruct H as [H|H]; [injection H as <- _ _; cbn; auto 10|]). destruct H.
Qed.

(** Calc of a formula of which the value is known. *)
Lemma publish w x s i F nm sy : session w -> known w -> nm <> "TEMP"%string -> ~ In nm (curvature_names name) ->
  tens n m c w x s i F ->
  exists t w', run_calc x nm sy [] w = (Ok t, w') /\ ~ named w' "TEMP" t /\ only_adds ["TEMP"%string; nm] w w' /\ session w' /\ known w' /\
    forall h, (forall f, (forall y, In y s -> f y < n) -> keq (F f) (h (map f s))) -> value w' t i h.
Proof.
  intros HS Ka Nn Nc T. assert (T' := T). destruct T' as (Ex & t & k & o & a & (R & Tx & O & N & Ln & Ro & V) & Hk & Nk & Mo & Ei & Sd & Ca & Ra & Va).
  rewrite Ex in N, Ln. rewrite Ei in Ln, V.
  destruct (result_run_as w n m c name xs g gi HS nm sy w x s i F [] i Nn (form_base w n m c name xs g gi HS) T (or_introl eq_refl)) as (r & b & w2 & E2 & G2 & A2 & Lr & Ir & Ur & Kr & Or & Cb & Rb & Vi & Lo & Vb).
  { split; [congruence|]. split; [congruence|]. tauto. }
  assert (Nr : named w2 nm r) by (eexists; split; [exact Or|reflexivity]).
  assert (Ad := adds_addsn m c _ _ _ _ A2 Nr).
  exists r, w2. split; [exact E2|]. split.
  { intros (o' & Ho' & E'). rewrite Or in Ho'. injection Ho' as <-. cbn in E'. congruence. }
  split; [apply (addsn_only m c), Ad|]. split; [exact (session_adds w n m c name xs g gi HS _ _ G2 A2)|]. split.
  - apply known_all_spec. apply known_all_spec in Ka. intros s' i' h' H. eapply known_keep; [exact Ad| | |apply Ka, H].
    + apply suffix_not_temp. eapply results_length, H.
    + intros [E|[]]. apply (curvature_names_in _ _ _ _ H Nc E).
  - intros h Hh. exists CTensor, (tobj nm sy i c m b), b.
    split; [exact Kr|]. split; [discriminate|]. split; [exact Or|]. split; [reflexivity|]. split; [reflexivity|]. split; [reflexivity|]. split; [apply tobj_stored|].
    apply (holds_of_values n s i b F h N Lo Cb Rb Vb Hh).
Qed.

Lemma result_tens w z s i a f : result_is w z s m c i a -> NoDup s -> length s = length i -> valid_cfg i -> holds n (length i) a f ->
  tens n m c w z s i (fun v => f (map v s)).
Proof.
  intros (R & Es & t & o & Tz & Ho & Hk & It & En & Mo & Co & Ei & Ro & Cs) Ns Ls Vi (Ca & Ra & Va).
  split; [exact Es|]. exists t, CTensor, o, a.
  split; [split; [exact R|split; [exact Tz|split; [exact Ho|rewrite Es, Ei, Ro; auto]]]|].
  split; [exact Hk|]. split; [discriminate|]. split; [exact Mo|]. split; [exact Ei|].
  split.
  { split; [exact Co|]. exists [(i, a)]. rewrite Cs, Ei. split; [cbn; rewrite Nat.eqb_refl; reflexivity|].
    cbn [dget]. rewrite cfg_eqb_refl. reflexivity. }
  split; [exact Ca|]. split; [exact Ra|]. intros v Hv. apply Va. split; [rewrite map_length; exact Ls|]. apply Forall_forall. intros q Hq.
  apply in_map_iff in Hq as (y & <- & Hy). apply Hv, Hy.
Qed.

Lemma publish_yields p names s i f w nm sy : nm <> "TEMP"%string -> ~ In nm (curvature_names name) ->
  NoDup s -> length s = length i -> valid_cfg i -> yields p m c name names s i f w ->
  makes (let! z := p in run_calc z nm sy []) m c name (nm :: names) i f w.
Proof.
  intros Nn Nc Ns Ls Vi (z & w1 & a & E & R & Ha & Ad & S1 & K1).
  destruct (publish w1 z s i (fun v => f (map v s)) nm sy S1 K1 Nn Nc (result_tens _ _ _ _ _ _ R Ns Ls Vi Ha)) as (t & w2 & E2 & Nt & Ad2 & S2 & K2 & V2).
  exists t, w2. split; [rewrite (bind_ok _ _ _ _ _ E); exact E2|]. split; [exact Nt|]. split; [apply V2; reflexivity|].
  split; [|auto]. assert (R2 : registry_ok w2) by apply S2.
  eapply only_adds_then; [exact R2| | |exact Ad|exact Ad2]; intros y Hy; clear - Hy; cbn in Hy |- *; tauto.
Qed.

Lemma derivatives_value steps : forall w t i T r, session w -> known w -> value w t (repeat (-1)%Z r ++ i) (iterated n (cx xs) Gam i T r) ->
  ~ named w "TEMP" t -> valid_cfg i -> fit name (r + length i) steps ->
  makes (derivatives steps t) m c name ((name ++ " Christoffel")%string :: map (fun s => fst (fst s)) steps)
    (repeat (-1)%Z (length steps + r) ++ i) (iterated n (cx xs) Gam i T (length steps + r)) w.
Proof.
  induction steps as [|[[nm a] syms] l IH]; intros w t i T r HS Ka Vt Nt Vi F.
  - exists t, w. split; [reflexivity|]. split; [exact Nt|]. split; [exact Vt|]. split; [|auto]. split; [auto|]. intros j Hj. left. auto.
  - destruct F as (Nn & Nc & Ns & Ls & H2 & F').
    assert (Vi' : valid_cfg (repeat (-1)%Z r ++ i)).
    { apply Forall_app. split; [|exact Vi]. apply Forall_forall. intros z Hz. apply repeat_spec in Hz as ->. auto. }
    assert (Ll : length syms = length (repeat (-1)%Z r ++ i)) by (rewrite app_length, repeat_length; exact Ls).
    assert (Y := gradient_value n m c name xs g gi w t _ _ syms a HS Ka Vt Nt Vi' Ns Ll H2).
    destruct (publish_yields (derivative t a syms) _ (a :: syms) (-1 :: repeat (-1) r ++ i)%Z _ w nm "" Nn Nc Ns ltac:(cbn [length]; congruence) ltac:(constructor; [auto|exact Vi']) Y) as (t1 & w1 & E1 & Nt1 & V1 & Ad1 & S1 & K1).
    destruct (IH w1 t1 i T (S r) S1 K1 V1 Nt1 Vi F') as (t2 & w2 & E2 & Nt2 & V2 & Ad2 & S2 & K2).
    exists t2, w2. split.
    { cbn [derivatives]. apply bind_inv in E1 as (z & w0 & E0 & E1). rewrite (bind_ok _ _ _ _ _ E0), (bind_ok _ _ _ _ _ E1). exact E2. }
    split; [exact Nt2|]. cbn [length plus]. rewrite <- Nat.add_succ_r. split; [exact V2|]. split; [|auto]. assert (R2 : registry_ok w2) by apply S2.
    eapply only_adds_then; [exact R2| | |exact Ad1|exact Ad2]; intros y Hy; clear - Hy; cbn in Hy |- *; tauto.
Qed.

Lemma repeated_value w t i h steps : session w -> known w -> value w t i h -> ~ named w "TEMP" t -> valid_cfg i -> fit name (length i) steps ->
  makes (derivatives steps t) m c name ((name ++ " Christoffel")%string :: map (fun s => fst (fst s)) steps)
    (repeat (-1)%Z (length steps) ++ i) (iterated n (cx xs) Gam i h (length steps)) w.
Proof. intros HS Ka Vt Nt Vi F. rewrite <- (Nat.add_0_r (length steps)). exact (derivatives_value steps w t i h 0 HS Ka Vt Nt Vi F). Qed.

(** *** The Ricci identity *)
Lemma session_sym w : session w -> symmetric_fun n g /\ inverse_fun n g gi.
Proof. intros HS. split; apply HS. Qed.

Lemma ricci_computed w t i h nm a b syms : session w -> known w -> value w t i h -> ~ named w "TEMP" t -> valid_cfg i ->
  nm <> "TEMP"%string -> ~ In nm (curvature_names name) -> NoDup (a :: b :: syms) -> length syms = length i -> two_letters_free (a :: b :: syms) ->
  exists f, yields (let! z := derivative t b syms in let! t' := run_calc z nm "" [] in derivative t' a (b :: syms)) m c name
      [nm; (name ++ " Christoffel")%string] (a :: b :: syms) (-1 :: -1 :: i)%Z f w /\
    forall p q idx, p < n -> q < n -> in_range n (length i) idx ->
      keq (ksub (f (p :: q :: idx)) (f (q :: p :: idx))) (curvature_terms n (Rie n xs g gi) i h p q idx).
Proof.
  intros HS Ka Vt Nt Vi Nn Nc Ns Ls H2. assert (Ns' := Ns). inversion Ns' as [|? ? Na Nb]; subst.
  assert (H2' : two_letters_free (b :: syms)).
  { destruct H2 as (x & y & Lx & Ly & Nxy & Ix & Iy). exists x, y. repeat split; auto; intros C; [apply Ix|apply Iy]; right; exact C. }
  assert (Y := gradient_value n m c name xs g gi w t _ _ syms b HS Ka Vt Nt Vi Nb Ls H2').
  destruct (publish_yields (derivative t b syms) _ (b :: syms) (-1 :: i)%Z _ w nm "" Nn Nc Nb ltac:(cbn [length]; congruence) ltac:(constructor; [auto|exact Vi]) Y) as (t1 & w1 & E1 & Nt1 & V1 & Ad1 & S1 & K1).
  assert (Y1 := gradient_value n m c name xs g gi w1 t1 (-1 :: i)%Z _ (b :: syms) a S1 K1 V1 Nt1 ltac:(constructor; [auto|exact Vi]) Ns ltac:(cbn [length]; congruence) H2).
  eexists. split.
  - destruct Y1 as (z & w2 & a2 & E2 & R2 & Ha2 & Ad2 & S2 & K2). exists z, w2, a2. split.
    { apply bind_inv in E1 as (z0 & w0 & E0 & E1). rewrite (bind_ok _ _ _ _ _ E0), (bind_ok _ _ _ _ _ E1). exact E2. }
    split; [exact R2|]. split; [exact Ha2|]. split; [|auto]. assert (Rw : registry_ok w2) by apply S2.
    eapply only_adds_then; [exact Rw| | |exact Ad1|exact Ad2]; intros y Hy; clear - Hy; cbn in Hy |- *; tauto.
  - intros p q idx Hp Hq [Hl Hr]. cbn [nth tl]. destruct (session_sym w HS) as [Sg Ig].
    apply (ricci_identity n (cx xs) Gam (fun i j k => G_sym n (cx xs) g gi Sg i j k)); assumption.
Qed.

(** *** The product rule *)
Lemma conn_outer W (z2 : list Z) T r2 : forall (z1 : list Z) S r1, length r1 = length z1 ->
  keq (conn n W (z1 ++ z2) (outer (length z1) S T) (r1 ++ r2)) (kadd (kmul (conn n W z1 S r1) (T r2)) (kmul (S r1) (conn n W z2 T r2))).
Proof.
  induction z1 as [|z z1 IH]; intros S r1 H.
  - destruct r1; [|discriminate H]. cbn [app length]. unfold outer. cbn [firstn skipn].
    assert (E : keq (conn n W z2 (fun idx => kmul (S []) (T idx)) r2) (kmul (S []) (conn n W z2 T r2))).
    { assert (E := conn_sum n W z2 (fun _ => S []) (fun _ => T) 1 r2). rewrite nsum1 in E. rewrite <- E. unfold conn. apply nsum_ext. intros j _. apply nsum_ext. intros d _. rewrite nsum1. reflexivity. }
    rewrite E. unfold conn at 2. cbn [length]. unfold nsum at 2. cbn. ring.
  - destruct r1 as [|k r1]; [discriminate H|]. cbn in H. injection H as H. cbn [app length]. rewrite conn_cons.
    change (fun ks => outer (Datatypes.S (length z1)) S T (k :: ks)) with (outer (length z1) (fun ks => S (k :: ks)) T).
    rewrite IH by exact H. rewrite conn_cons.
    assert (E : keq (nsum n (fun d => kmul (W z k d) (outer (Datatypes.S (length z1)) S T (d :: r1 ++ r2)))) (kmul (nsum n (fun d => kmul (W z k d) (S (d :: r1)))) (T r2))).
    { rewrite <- nsum_scale_r. apply nsum_ext. intros d _. unfold outer. cbn [firstn skipn].
      rewrite <- H, firstn_app, skipn_app, Nat.sub_diag, firstn_all, skipn_all. cbn [firstn skipn]. rewrite app_nil_r. cbn [app]. ring. }
    rewrite E. ring.
Qed.

Lemma product_rule x (G : nat -> nat -> nat -> K) i1 i2 S T k idx : length idx = length (i1 ++ i2) ->
  let r1 := firstn (length i1) idx in let r2 := skipn (length i1) idx in
  keq (covariant_of n x G (i1 ++ i2) (outer (length i1) S T) k idx)
    (kadd (kmul (covariant_of n x G i1 S k r1) (T r2)) (kmul (S r1) (covariant_of n x G i2 T k r2))).
Proof.
  intros Hl r1 r2. rewrite app_length in Hl. rewrite !(covariant_conn n) by reflexivity.
  assert (Li : idx = r1 ++ r2) by (symmetry; apply firstn_skipn).
  assert (Lr : length r1 = length i1) by (unfold r1; rewrite firstn_length; lia).
  assert (E : keq (conn n (wz G k) (i1 ++ i2) (outer (length i1) S T) idx) (kadd (kmul (conn n (wz G k) i1 S r1) (T r2)) (kmul (S r1) (conn n (wz G k) i2 T r2)))).
  { rewrite Li at 1. apply conn_outer, Lr. }
  rewrite E. unfold outer at 1. fold r1 r2. rewrite kdiff_mul. ring.
Qed.

Lemma map_outer (f : string -> nat) s1 s2 r (S T : list nat -> K) : r = length s1 -> outer r S T (map f (s1 ++ s2)) = kmul (S (map f s1)) (T (map f s2)).
Proof.
  intros ->. unfold outer. rewrite <- (map_length f s1), map_app, firstn_app, skipn_app, Nat.sub_diag, firstn_all, skipn_all.
  cbn [firstn skipn]. rewrite app_nil_r. reflexivity.
Qed.

Lemma product_published w t1 i1 h1 s1 t2 i2 h2 s2 nm sy : session w -> known w -> value w t1 i1 h1 -> value w t2 i2 h2 -> valid_cfg i1 -> valid_cfg i2 ->
  NoDup (s1 ++ s2) -> length s1 = length i1 -> length s2 = length i2 -> nm <> "TEMP"%string -> ~ In nm (curvature_names name) ->
  makes (let! x := calc_call t1 s1 in let! y := calc_call t2 s2 in let! z := matmul x y in run_calc z nm sy []) m c name [nm]
    (i1 ++ i2) (outer (length i1) h1 h2) w.
Proof.
  intros HS Ka V1 V2 Vi1 Vi2 Ns L1 L2 Nn Nc.
  assert (Ns1 : NoDup s1) by (eapply NoDup_app_l; exact Ns). assert (Ns2 : NoDup s2) by (eapply NoDup_app_r; exact Ns).
  assert (Dj : forall x, In x s1 -> ~ In x s2) by (intros x H1 H3; revert Ns; apply in_split in H3 as (u & v & ->); rewrite app_assoc; intros N; apply NoDup_remove_2 in N; apply N; rewrite <- app_assoc; apply in_or_app; auto).
  assert (F0 := form_base w n m c name xs g gi HS).
  destruct (runs_call w n m c name xs g gi HS w t1 s1 i1 h1 F0 V1 Ns1 L1 Vi1) as (x & w1 & E1 & F1 & _ & -> & T1).
  destruct (runs_call w n m c name xs g gi HS w t2 s2 i2 h2 F0 V2 Ns2 L2 Vi2) as (y & w2 & E2 & F2 & _ & -> & T2).
  assert (Em : matmul x y = matmul0 x y).
  { unfold matmul, matmul_with. destruct T1 as (_ & ? & ? & ? & ? & (-> & _) & _). destruct T2 as (_ & ? & ? & ? & ? & (-> & _) & _). reflexivity. }
  assert (P : runs w m c w (matmul0 x y) (fun z w' => tens n m c w' z (s1 ++ s2) (i1 ++ i2) (fun f => kmul (h1 (map f s1)) (h2 (map f s2))))).
  { destruct i1 as [|z1 i1']; [|destruct i2 as [|z2 i2']].
    - apply (runs_mul_scalar w n m c name xs g gi HS w x y s1 [] _ s2 i2 _ F0 T1 T2). auto.
    - apply (runs_mul_scalar w n m c name xs g gi HS w x y s1 _ _ s2 [] _ F0 T1 T2). auto.
    - destruct (runs_mul w n m c name xs g gi HS w x y s1 _ _ s2 _ _ F0 T1 T2) as (z & w' & E & F & G & T); [discriminate|discriminate| |].
      + split; [congruence|]. intros j v q Hv Hq. split; [|intros _; exact Hq]. intros p z Hp _. exfalso. apply nth_error_In in Hp. apply nth_error_In in Hv. apply (Dj v Hp Hv).
      + exists z, w'. split; [exact E|]. split; [exact F|]. split; [exact G|].
        rewrite !without_disjoint, !indices_without_disjoint in T by (try congruence; auto; intros v H1 H3; exact (Dj v H3 H1)).
        eapply tens_ext; [|exact T]. intros f Hf. cbv beta.
        assert (Ec : common s1 s2 = []).
        { unfold common. apply filter_none. intros v Hv. apply not_true_is_false. intros H. apply existsb_exists in H as (u & Hu & E'). apply String.eqb_eq in E' as <-. exact (Dj v Hv Hu). }
        rewrite Ec. transitivity (kadd (kmul (h1 (map f s1)) (h2 (map f s2))) k0); [reflexivity|ring]. }
  destruct P as (z & w3 & E3 & F3 & G3 & T3). destruct (form_good w n m c name xs g gi HS w3 F3) as [Gw Aw].
  assert (S3 := session_adds w n m c name xs g gi HS _ _ Gw Aw).
  assert (Ad : addsn m c [] w w3).
  { destruct Aw as (a1 & a2 & a3 & a4 & a5). split; [exact a1|]. split; [exact a2|]. split; [|auto]. intros j Hj. destruct (a3 j Hj) as [H|[[]|H]]; [auto|]. right. exists "TEMP"%string. split; [left; reflexivity|exact H]. }
  assert (K3 : known w3).
  { apply known_all_spec. apply known_all_spec in Ka. intros s' i' h' H. eapply known_keep; [exact Ad| |intros []|apply Ka, H]. apply suffix_not_temp. eapply results_length, H. }
  destruct (publish w3 z _ _ _ nm sy S3 K3 Nn Nc T3) as (t & w4 & E4 & Nt & Ad4 & S4 & K4 & V4).
  exists t, w4. split; [rewrite (bind_ok _ _ _ _ _ E1), (bind_ok _ _ _ _ _ E2), Em, (bind_ok _ _ _ _ _ E3); exact E4|]. split; [exact Nt|].
  split; [apply V4; intros f _; rewrite map_outer by congruence; reflexivity|]. split; [|auto]. assert (Rw : registry_ok w4) by apply S4.
  eapply only_adds_then; [exact Rw| | |apply (addsn_only m c), Ad|exact Ad4]; intros v Hv; clear - Hv; cbn in Hv |- *; tauto.
Qed.

Lemma product_derivative w t1 i1 h1 s1 t2 i2 h2 s2 nm a : session w -> known w -> value w t1 i1 h1 -> value w t2 i2 h2 -> valid_cfg i1 -> valid_cfg i2 ->
  NoDup (a :: s1 ++ s2) -> length s1 = length i1 -> length s2 = length i2 -> two_letters_free (a :: s1 ++ s2) ->
  nm <> "TEMP"%string -> ~ In nm (curvature_names name) ->
  yields (let! x := calc_call t1 s1 in let! y := calc_call t2 s2 in let! z := matmul x y in let! t := run_calc z nm "" [] in derivative t a (s1 ++ s2)) m c name
    [nm; (name ++ " Christoffel")%string] (a :: s1 ++ s2) (-1 :: i1 ++ i2)%Z
    (fun idx => let k := nth 0 idx 0 in let r1 := firstn (length i1) (tl idx) in let r2 := skipn (length i1) (tl idx) in
       kadd (kmul (covariant_of n (cx xs) Gam i1 h1 k r1) (h2 r2)) (kmul (h1 r1) (covariant_of n (cx xs) Gam i2 h2 k r2))) w.
Proof.
  intros HS Ka V1 V2 Vi1 Vi2 Ns L1 L2 H2 Nn Nc. assert (Ns' := Ns). inversion Ns' as [|? ? Na Nb]; subst.
  destruct (product_published w t1 i1 h1 s1 t2 i2 h2 s2 nm "" HS Ka V1 V2 Vi1 Vi2 Nb L1 L2 Nn Nc) as (t & w1 & E1 & Nt & V & Ad1 & S1 & K1).
  assert (Y := gradient_value n m c name xs g gi w1 t (i1 ++ i2) _ (s1 ++ s2) a S1 K1 V Nt ltac:(apply Forall_app; auto) Ns ltac:(rewrite !app_length; congruence) H2).
  eapply yields_ext; [|].
  2:{ destruct Y as (z & w2 & a2 & E2 & R2 & Ha2 & Ad2 & S2 & K2). exists z, w2, a2. split.
    { apply bind_inv in E1 as (x & w3 & E3 & E1). apply bind_inv in E1 as (y & w4 & E4 & E1). apply bind_inv in E1 as (v & w5 & E5 & E1).
      rewrite (bind_ok _ _ _ _ _ E3), (bind_ok _ _ _ _ _ E4), (bind_ok _ _ _ _ _ E5), (bind_ok _ _ _ _ _ E1). exact E2. }
    split; [exact R2|]. split; [exact Ha2|]. split; [|auto]. assert (Rw : registry_ok w2) by apply S2.
    eapply only_adds_then; [exact Rw| | |exact Ad1|exact Ad2]; intros y Hy; clear - Hy; cbn in Hy |- *; tauto. }
  intros idx [Hl Hr]. cbn [length] in Hl. cbv beta zeta. apply product_rule. destruct idx; [discriminate Hl|]. cbn in *. congruence.
Qed.

(** *** Raising and lowering *)
Lemma raised_derivative w u i j h syms a : session w -> known w -> value w u j (converted n g gi i j h) -> ~ named w "TEMP" u ->
  valid_cfg i -> valid_cfg j -> length i = length j -> NoDup (a :: syms) -> length syms = length j -> two_letters_free (a :: syms) ->
  yields (derivative u a syms) m c name [(name ++ " Christoffel")%string] (a :: syms) (-1 :: j)%Z
    (converted n g gi (-1 :: i)%Z (-1 :: j)%Z (fun idx => covariant_of n (cx xs) Gam i h (nth 0 idx 0) (tl idx))) w.
Proof.
  intros HS Ka Vu Nu Vi Vj Hl Ns Ls H2. destruct (session_sym w HS) as [Sg Ig].
  eapply yields_ext; [|exact (gradient_value n m c name xs g gi w u _ _ syms a HS Ka Vu Nu Vj Ns Ls H2)].
  intros idx [Li Ri]. destruct idx as [|k idx]; [discriminate Li|]. cbn in Li. injection Li as Li. inversion Ri as [|? ? Hk Ri']; subst. cbn [nth tl].
  rewrite (raise_covariant n (cx xs) g gi Sg Ig i j h k idx Vi Vj Hl Hk) by (split; [congruence|exact Ri']).
  unfold converted. cbn [combine map fst snd]. rewrite act_cons. unfold conv at 2. rewrite Z.eqb_refl.
  rewrite (nsum_delta_l n k (fun d => act n _ (fun ks => covariant_of n (cx xs) Gam i h (nth 0 (d :: ks) 0) (tl (d :: ks))) idx) Hk). reflexivity.
Qed.
End Deriv.
