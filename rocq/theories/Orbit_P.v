(** Geodesic equations of the metrics of Defaults.py. *)
From Verif Require Import Alg Alg_P Arr Arr_P Spec Act_P TensorM WorldM SpecWorld CalcM SpecCalc CurvM SpecCurv SpecConst SpecDefault Default_P DefaultRun_P GeodM SpecGeod SpecOrbit SpecScale Geod5_P GeodCons_P ScaleGeod_P.
Local Open Scope K_scope.

Section Curves.
Context {A : AlgOps} {L : AlgLaws A}.
Add Ring Kring : kring (setoid keq_equiv kring_ext).
Lemma gives_curve_weaken n xs g gi p m c name names k i (P Q : (list nat -> K) -> Prop) w :
  (forall h, P h -> Q h) -> gives_curve n xs g gi p m c name names k i P w -> gives_curve n xs g gi p m c name names k i Q w.
Proof.
  intros H (t & w' & h & E1 & E2 & E3 & E4 & E5 & E6). exists t, w', h.
  split; [exact E1|]. split; [exact E2|]. split; [exact E3|]. split; [exact E4|]. split; [apply H, E5|exact E6].
Qed.
Lemma is_geodesic_ext n (e e' : nat -> K) h : (forall k, (k < n)%nat -> e k == e' k) -> is_geodesic n e h -> is_geodesic n e' h.
Proof. intros E H k Bk. eapply unit_trans; [exact (H k Bk)|]. apply unit_eq, E, Bk. Qed.
Lemma time_split n (G : nat -> nat -> nat -> K) v a s : a 0%nat == k0 -> (0 < n)%nat ->
  time_geodesic_of n G v a s == geodesic_of n G v a s - v s * geodesic_of n G v a 0.
Proof.
  intros H0 _. unfold time_geodesic_of, geodesic_of. rewrite (time_sum n G v s), H0. ring.
Qed.
Lemma geodesic_ext n (G G' : nat -> nat -> nat -> K) v a s : (s < n)%nat ->
  (forall i j k, (i < n)%nat -> (j < n)%nat -> (k < n)%nat -> G i j k == G' i j k) -> geodesic_of n G v a s == geodesic_of n G' v a s.
Proof.
  intros Bs H. unfold geodesic_of. rewrite (nsum_ext n _ (fun i => nsum n (fun j => G' s i j * (v i * v j)))); [reflexivity|].
  intros i Bi. apply nsum_ext. intros j Bj. rewrite (H s i j Bs Bi Bj). reflexivity.
Qed.
Lemma sch_orbit M r ri s si c fi v a i : (i < 4)%nat ->
  geodesic_of 4 (schwarzschild_gamma M r ri s si c fi) v a i == schwarzschild_orbit M r ri s si c fi v a i.
Proof.
  intros Bi. unfold geodesic_of, schwarzschild_orbit, ktwo, ksquare. do 4 (destruct i as [|i]; [unfold nsum; cbn [lsum seq schwarzschild_gamma]; cbv beta iota zeta; ring|]). lia.
Qed.
Lemma flr_orbit a ai d k r ri s si c wi v b i : (i < 4)%nat ->
  geodesic_of 4 (flrw_gamma a ai d k r ri s si c wi) v b i == flrw_orbit a ai d k r ri s si c wi v b i.
Proof.
  intros Bi. unfold geodesic_of, flrw_orbit, ktwo, ksquare. do 4 (destruct i as [|i]; [unfold nsum; cbn [lsum seq flrw_gamma]; cbv beta iota zeta; ring|]). lia.
Qed.
End Curves.

Section Run.
Context {A : AlgOps} {L : AlgLaws A} {D : DiffLaws A} {Cl : CleanLaws A}.
Add Ring Kring2 : kring (setoid keq_equiv kring_ext).
Variables (m c : oid) (name : string) (xs : list string) (g gi : nat -> nat -> K) (w : world) (coords : option oid).
Hypothesis HS : metric_session w 4 m c name xs g gi.
Hypothesis HK : known_results 4 xs g gi w m c name.
Hypothesis HC : known_curves 4 xs g gi w m c name.
Hypothesis Co : coords = None \/ coords = Some c.
Notation chr := [(name ++ " Christoffel")%string; (name ++ " Geodesic From Christoffel")%string].
Notation tim := [(name ++ " Christoffel")%string; (name ++ " Geodesic With Time Parameter")%string].

Lemma orbits (G : nat -> nat -> nat -> K) (o : (nat -> K) -> (nat -> K) -> nat -> K) :
  (forall i j k, (i < 4)%nat -> (j < 4)%nat -> (k < 4)%nat -> Gam 4 xs g gi i j k == G i j k) ->
  (forall v a i, (i < 4)%nat -> geodesic_of 4 G v a i == o v a i) ->
  gives_curve 4 xs g gi (calc_geodesic_christoffel m coords) m c name chr CGeodesic [1]%Z (is_geodesic 4 (o (cvel xs) (cacc xs))) w /\
  gives_curve 4 xs g gi (calc_geodesic_time m coords) m c name tim CGeodesic [1]%Z (is_geodesic 4 (by_time o xs)) w.
Proof.
  intros HG Ho. split.
  - eapply gives_curve_weaken; [|apply (geodesic_christoffel_gives 4 m c name xs g gi w coords HS HK HC Co)].
    intros h. apply is_geodesic_ext. intros k Bk. unfold Geo. rewrite (geodesic_ext 4 _ G _ _ k Bk HG). apply Ho, Bk.
  - eapply gives_curve_weaken; [|apply (geodesic_time_gives 4 m c name xs g gi w coords HS HK HC Co)].
    intros h. apply is_geodesic_ext. intros k Bk. unfold Geo_time. rewrite (time_split 4 _ (tvel xs) (tacc xs) k); [|reflexivity|lia].
    rewrite (geodesic_ext 4 _ G _ _ k Bk HG), (geodesic_ext 4 _ G _ _ 0%nat ltac:(lia) HG). unfold by_time. rewrite (Ho _ _ k Bk), (Ho _ _ 0%nat ltac:(lia)). reflexivity.
Qed.
Lemma sch_orbits M r ri s si cos fi :
  spherical_functions xs r ri s si cos -> constant_in xs M -> horizon_function M ri * fi == k1 ->
  (forall i j, (i < 4)%nat -> (j < 4)%nat -> g i j == schwarzschild M r ri s fi i j) ->
  gives_curve 4 xs g gi (calc_geodesic_christoffel m coords) m c name chr CGeodesic [1]%Z
    (is_geodesic 4 (schwarzschild_orbit M r ri s si cos fi (cvel xs) (cacc xs))) w /\
  gives_curve 4 xs g gi (calc_geodesic_time m coords) m c name tim CGeodesic [1]%Z
    (is_geodesic 4 (by_time (schwarzschild_orbit M r ri s si cos fi) xs)) w.
Proof.
  intros Hf HM HF Hg. apply (orbits (schwarzschild_gamma M r ri s si cos fi)).
  - exact (sw_gam m c name xs g gi w HS M r ri s si cos fi Hf HM HF Hg).
  - intros v a i. apply sch_orbit.
Qed.
Lemma flr_orbits a ai a1 k r ri s si cos wi :
  spherical_functions xs r ri s si cos -> constant_in xs k -> a * ai == k1 -> depends_on xs 0 a a1 ->
  curvature_function k r * wi == k1 ->
  (forall i j, (i < 4)%nat -> (j < 4)%nat -> g i j == flrw a r s wi i j) ->
  gives_curve 4 xs g gi (calc_geodesic_christoffel m coords) m c name chr CGeodesic [1]%Z
    (is_geodesic 4 (flrw_orbit a ai a1 k r ri s si cos wi (cvel xs) (cacc xs))) w /\
  gives_curve 4 xs g gi (calc_geodesic_time m coords) m c name tim CGeodesic [1]%Z
    (is_geodesic 4 (by_time (flrw_orbit a ai a1 k r ri s si cos wi) xs)) w.
Proof.
  intros Hf Hk Ha Ha1 HW Hg. apply (orbits (flrw_gamma a ai a1 k r ri s si cos wi)).
  - exact (fl_gam m c name xs g gi w HS a ai a1 k r ri s si cos wi Hf Hk Ha Ha1 HW Hg).
  - intros v b i. apply flr_orbit.
Qed.
End Run.

Section Flat.
Context {A : AlgOps} {L : AlgLaws A} {D : DiffLaws A} {Cl : CleanLaws A}.
Add Ring Kring3 : kring (setoid keq_equiv kring_ext).
Variables (n : nat) (m c : oid) (name : string) (xs : list string) (g gi : nat -> nat -> K) (w : world) (coords : option oid).
Hypothesis HS : metric_session w n m c name xs g gi.
Hypothesis HK : known_results n xs g gi w m c name.
Hypothesis HC : known_curves n xs g gi w m c name.
Hypothesis Co : coords = None \/ coords = Some c.
Lemma flat_orbits : (forall i j, (i < n)%nat -> (j < n)%nat -> constant xs (g i j)) ->
  gives_curve n xs g gi (calc_geodesic_christoffel m coords) m c name
    [(name ++ " Christoffel")%string; (name ++ " Geodesic From Christoffel")%string] CGeodesic [1]%Z (is_geodesic n (cacc xs)) w /\
  gives_curve n xs g gi (calc_geodesic_time m coords) m c name
    [(name ++ " Christoffel")%string; (name ++ " Geodesic With Time Parameter")%string] CGeodesic [1]%Z (is_geodesic n (tacc xs)) w.
Proof.
  intros Hc. destruct (session_facts n m c name xs g gi w HS) as (Hs & Hi & Lx).
  assert (HG : forall i j k, (i < n)%nat -> (j < n)%nat -> (k < n)%nat -> Gam n xs g gi i j k == k0).
  { intros i j k Bi Bj Bk. unfold Gam, christoffel_of. rewrite <- (nsum_zero n). apply nsum_ext. intros l Bl.
    assert (E : forall p q r, (p < n)%nat -> (q < n)%nat -> (r < n)%nat -> kdiff (cx xs p) (g q r) == k0).
    { intros p q r Bp Bq Br. apply Hc; [exact Bq|exact Br|]. apply nth_In. rewrite Lx. exact Bp. }
    rewrite (E j l k Bj Bl Bk), (E k j l Bk Bj Bl), (E l j k Bl Bj Bk). ring. }
  assert (HZ : forall v a i, geodesic_of n (fun _ _ _ => k0) v a i == a i).
  { intros v a i. unfold geodesic_of. rewrite (nsum_ext n _ (fun _ => k0)); [rewrite nsum_zero; ring|]. intros p _. rewrite <- (nsum_zero n). apply nsum_ext. intros q _. ring. }
  split.
  - eapply gives_curve_weaken; [|apply (geodesic_christoffel_gives n m c name xs g gi w coords HS HK HC Co)].
    intros h. apply is_geodesic_ext. intros k Bk. unfold Geo. rewrite (geodesic_ext n _ (fun _ _ _ => k0) _ _ k Bk HG). apply HZ.
  - eapply gives_curve_weaken; [|apply (geodesic_time_gives n m c name xs g gi w coords HS HK HC Co)].
    intros h. apply is_geodesic_ext. intros k Bk. unfold Geo_time. rewrite (time_split n _ (tvel xs) (tacc xs) k); [|reflexivity|lia].
    rewrite (geodesic_ext n _ (fun _ _ _ => k0) _ _ k Bk HG), (geodesic_ext n _ (fun _ _ _ => k0) _ _ 0%nat ltac:(lia) HG), !HZ.
    change (tacc xs 0%nat) with (@k0 A). ring.
Qed.
End Flat.
