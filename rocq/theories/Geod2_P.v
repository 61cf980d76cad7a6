(** The Lagrangian and the geodesic equations as functions of a session with one metric. *)
From Verif Require Import Alg Alg_P Arr Arr_P Spec UtilsM Utils_P Arr2_P Act_P RL_P TensorM WorldM SpecWorld World_P Registry_P CalcM SpecCalc Keep_P Calc_P Calc2_P Calc3_P Calc4_P Trace_P Run_P CurvM SpecCurv Form_P Form2_P CurvRun_P CurvRun2_P Weyl_P GeodM SpecGeod Geod_P.
From Verif Require History_P.
Local Open Scope nat_scope.

Section Geod.
Context {A : AlgOps} {L : AlgLaws A} {D : DiffLaws A} {C : CleanLaws A}.
Add Ring Kring : kring (setoid keq_equiv kring_ext).
Variables (n : nat) (m c : oid) (name : string) (xs : list string) (g gi : nat -> nat -> K).
Notation session w := (metric_session w n m c name xs g gi).
Notation known_all := (known_all n m c name xs g gi).
Notation known_curves w := (known_curves n xs g gi w m c name).
Notation known_curve w := (known_curve n w m c).
Notation curve := (string * cls * list Z * ((list nat -> K) -> Prop))%type.

Definition curves : list curve :=
  [(" Lagrangian", CLagrangian, [], is_lagrangian n xs g);
   (" Geodesic From Lagrangian", CGeodesic, [1]%Z, is_geodesic n (Geo_lowered n xs g gi));
   (" Geodesic From Christoffel", CGeodesic, [1]%Z, is_geodesic n (Geo n xs g gi));
   (" Geodesic With Time Parameter", CGeodesic, [1]%Z, is_geodesic n (Geo_time n xs g gi))]%string.
Definition known_cs (w : world) : Prop := forall s k i P, In (s, k, i, P) curves -> known_curve w k (name ++ s) i P.
Lemma known_cs_spec w : known_cs w <-> known_curves w.
Proof.
  split.
  - intros H. repeat split; apply H; cbn; auto 10.
  - intros (H1 & H2 & H3 & H4) s k i P H. cbn in H.
    repeat (destruct H as [H|H]; [injection H as <- <- <- <-; assumption|]). destruct H.
Qed.
Lemma curves_unique s k i P k' i' P' : In (s, k, i, P) curves -> In (s, k', i', P') curves -> k = k' /\ i = i' /\ P = P'.
Proof.
  intros H H'. cbn in H, H'.
  repeat (destruct H as [H|H]; [injection H as <- <- <- <-; repeat (destruct H' as [H'|H']; [try discriminate H'; injection H' as <- <- <-; auto|]); destruct H'|]). destruct H.
Qed.
Lemma curves_length s k i P : In (s, k, i, P) curves -> 5 <= String.length s.
Proof. intros H. cbn in H. repeat (destruct H as [H|H]; [injection H as <- _ _ _; cbn; lia|]). destruct H. Qed.
Lemma curves_results s k i P s' i' h : In (s, k, i, P) curves -> In (s', i', h) (results n xs g gi) -> s <> s'.
Proof.
  intros H H' <-. cbn in H, H'.
  repeat (destruct H as [H|H]; [injection H as <- _ _ _; repeat (destruct H' as [H'|H']; [discriminate H'|]); destruct H'|]). destruct H.
Qed.
Lemma curves_cls s k i P : In (s, k, i, P) curves -> k <> CCoordinates.
Proof. intros H. cbn in H. repeat (destruct H as [H|H]; [injection H as _ <- _ _; discriminate|]). destruct H. Qed.

Lemma curve_keep l w w' k nm i P : addsn m c l w w' -> nm <> "TEMP"%string -> ~ In nm l -> known_curve w k nm i P -> known_curve w' k nm i P.
Proof.
  intros Ad Nn Nl Kn j Hj Hk (o & Ho & En). assert (Ad' := Ad). destruct Ad' as (_ & a2 & a3 & _).
  destruct (a3 j Hj) as [[H1 H2]|(s & Hs & o' & Ho' & E)].
  - assert (Hw := H2 o Ho). assert (Nj : ~ named w "TEMP" j) by (intros (o' & E & E'); congruence).
    destruct (a2 j o Hw ltac:(congruence)) as (_ & Ec & _).
    destruct (Kn j H1) as (h & Hh & V); [congruence|exists o; auto|]. exists h. split; [exact Hh|]. apply (value_adds m c l w w' n j i h Ad Nj V).
  - rewrite Ho in Ho'. injection Ho' as <-. destruct Hs as [Hs|Hs]; [congruence|]. exfalso. apply Nl. congruence.
Qed.
Lemma curve_new t w w' k nm i (P : (list nat -> K) -> Prop) h : adds m c [t] w w' -> nm <> "TEMP"%string -> named w' nm t -> tensor_value w' n m c t i h -> P h ->
  known_curve w k nm i P -> known_curve w' k nm i P.
Proof.
  intros Ad Nn Nt Vt Ph Kn j Hj Hk (o & Ho & En). assert (Ad' := Ad). destruct Ad' as (_ & a2 & a3 & _).
  destruct (a3 j Hj) as [[H1 H2]|[[<-|[]]|(o' & Ho' & E)]]; [|exists h; auto|congruence].
  assert (Hw := H2 o Ho). destruct (a2 j o Hw ltac:(congruence)) as (_ & Ec & _).
  destruct (Kn j H1) as (h' & Hh & V); [congruence|exists o; auto|]. exists h'. split; [exact Hh|].
  apply (value_adds m c [nm] w w' n j i h' (adds_addsn m c _ _ _ _ Ad Nt)); [intros (o' & E & E'); congruence|exact V].
Qed.
Lemma curves_keep l w w' : addsn m c l w w' -> (forall s k i P, In (s, k, i, P) curves -> ~ In (name ++ s)%string l) -> known_cs w -> known_cs w'.
Proof.
  intros Ad Hl Kc s k i P H. eapply curve_keep; [exact Ad|apply suffix_not_temp; eapply curves_length, H|eapply Hl, H|apply Kc, H].
Qed.
Lemma all_keep l w w' : addsn m c l w w' -> (forall s i h, In (s, i, h) (results n xs g gi) -> ~ In (name ++ s)%string l) -> known_all w -> known_all w'.
Proof.
  intros Ad Hl Kc s i P H. eapply known_keep; [exact Ad|apply suffix_not_temp; eapply results_length, H|eapply Hl, H|apply Kc, H].
Qed.

(** The outcome of a function. *)
Definition cdone (w : world) (names : list string) (s : string) (k : cls) (p : M oid) (i : list Z) (P : (list nat -> K) -> Prop) : Prop :=
  exists t w', p w = (Ok t, w') /\ good w' /\ addsn m c names w w' /\ known_all w' /\ known_cs w' /\ In t (insts w') /\ named w' (name ++ s) t /\
    cls_of w' t = Some k /\ exists h, P h /\ tensor_value w' n m c t i h.

Lemma cdone_end w p s k i P : known_all w -> known_cs w -> In (s, k, i, P) curves ->
  reach w p (fun t w' => good w' /\ adds m c [t] w w' /\ In t (insts w') /\ named w' (name ++ s) t /\ cls_of w' t = Some k /\
    exists h, P h /\ tensor_value w' n m c t i h) ->
  cdone w [(name ++ s)%string] s k p i P.
Proof.
  intros Ka Kc Hs (t & w' & E & G & Ad & It & Nt & Kt & h & Ph & V). assert (Nn := suffix_not_temp name s (curves_length _ _ _ _ Hs)).
  assert (An := adds_addsn m c _ _ _ _ Ad Nt).
  exists t, w'. split; [exact E|]. split; [exact G|]. split; [exact An|]. split; [|split; [|split; [exact It|split; [exact Nt|split; [exact Kt|exists h; auto]]]]].
  - eapply all_keep; [exact An| |exact Ka]. intros s' i' h' H' [E'|[]]. apply append_inj in E'. apply (curves_results _ _ _ _ _ _ _ Hs H' E').
  - intros s' k' i' P' H'. destruct (string_dec s s') as [<-|N].
    + destruct (curves_unique _ _ _ _ _ _ _ Hs H') as (<- & <- & <-). eapply curve_new; eauto.
    + eapply curve_keep; [exact An|apply suffix_not_temp; eapply curves_length, H'| |apply Kc, H']. intros [E'|[]]. apply append_inj in E'. contradiction.
Qed.
Lemma cdone_step w l1 l2 s1 s2 k2 (p : M oid) q i1 h1 i2 P2 : session w -> known_cs w -> done n m c name xs g gi w l1 s1 p i1 h1 ->
  (forall s k i P, In (s, k, i, P) curves -> ~ In (name ++ s)%string l1) ->
  (forall t w1, session w1 -> known_all w1 -> known_cs w1 -> tensor_value w1 n m c t i1 h1 -> In t (insts w1) -> cdone w1 l2 s2 k2 (q t) i2 P2) ->
  cdone w (l1 ++ l2) s2 k2 (mbind p q) i2 P2.
Proof.
  intros HS Kc (t & w1 & E & G & Ad & Ka & It & Nt & V) Hl H. assert (S1 := session_addsn n m c name xs g gi _ _ _ HS G Ad).
  assert (Kc1 := curves_keep _ _ _ Ad Hl Kc). destruct (H t w1 S1 Ka Kc1 V It) as (t2 & w2 & E2 & G2 & Ad2 & R).
  exists t2, w2. split; [rewrite (bind_ok _ _ _ _ _ E); exact E2|]. split; [exact G2|]. split; [eapply addsn_trans; [apply G2|exact Ad|exact Ad2]|exact R].
Qed.
Lemma cdone_chain w l1 l2 s1 s2 k1 k2 (p : M oid) q i1 P1 i2 P2 : session w -> cdone w l1 s1 k1 p i1 P1 ->
  (forall t w1 h, session w1 -> known_all w1 -> known_cs w1 -> In t (insts w1) -> P1 h -> tensor_value w1 n m c t i1 h -> cdone w1 l2 s2 k2 (q t) i2 P2) ->
  cdone w (l1 ++ l2) s2 k2 (mbind p q) i2 P2.
Proof.
  intros HS (t & w1 & E & G & Ad & Ka & Kc & It & Nt & Kt & h & Ph & V) H. assert (S1 := session_addsn n m c name xs g gi _ _ _ HS G Ad).
  destruct (H t w1 h S1 Ka Kc It Ph V) as (t2 & w2 & E2 & G2 & Ad2 & R).
  exists t2, w2. split; [rewrite (bind_ok _ _ _ _ _ E); exact E2|]. split; [exact G2|]. split; [eapply addsn_trans; [apply G2|exact Ad|exact Ad2]|exact R].
Qed.
Lemma cdone_gives w l s k p i P : session w -> cdone w l s k p i P -> gives_curve n xs g gi p m c name l k i P w.
Proof.
  intros HS (t & w' & E & G & Ad & Ka & Kc & It & Nt & Kt & h & Ph & V). exists t, w', h. split; [exact E|]. split; [exact It|]. split; [exact Kt|]. split; [exact V|]. split; [exact Ph|].
  split; [eapply addsn_only, Ad|]. split; [eapply session_addsn; eauto|]. split; [apply known_all_spec, Ka|apply known_cs_spec, Kc].
Qed.

(** The look-up by class and name. *)
Lemma first_instance_spec w k nm l : (forall j, In j l -> obj_of w j <> None) ->
  exists r, first_instance k nm l w = (Ok r, w) /\
    match r with Some j => In j l /\ named w nm j /\ cls_of w j = Some k | None => forall j, In j l -> cls_of w j = Some k -> ~ named w nm j end.
Proof.
  intros H. induction l as [|i l IH]; [exists None; split; [reflexivity|intros j []]|]. cbn [first_instance].
  destruct (obj_of w i) as [o|] eqn:Eo; [|exfalso; apply (H i (or_introl eq_refl) Eo)].
  destruct IH as (r & E & Hr); [intros j Hj; apply H; right; exact Hj|].
  destruct (cls_of w i) as [k'|] eqn:Ek.
  2:{ unfold obj_of in Eo. unfold cls_of in Ek. destruct (nth_error (heap w) i) as [[]|]; discriminate. }
  destruct (cls_eqb k k') eqn:Ekk.
  - assert (k' = k) by (destruct k', k; try discriminate Ekk; reflexivity). subst k'.
    rewrite (bind_ok _ _ true w w) by (unfold isinstance; rewrite Ek, Ekk; reflexivity). cbn [negb].
    rewrite (bind_ok _ _ o w w) by (apply getobj_ok, Eo). destruct (String.eqb_spec (o_name o) nm) as [En|N].
    + exists (Some i). split; [reflexivity|]. split; [left; reflexivity|]. split; [exists o; auto|exact Ek].
    + exists r. split; [exact E|]. destruct r as [j|].
      * split; [right|]; apply Hr.
      * intros j [<-|Hj] Hk; [intros (o' & E' & E''); congruence|apply Hr; assumption].
  - rewrite (bind_ok _ _ false w w) by (unfold isinstance; rewrite Ek, Ekk; reflexivity). cbn [negb].
    exists r. split; [exact E|]. destruct r as [j|].
    + split; [right|]; apply Hr.
    + intros j [<-|Hj] Hk; [|apply Hr; assumption]. exfalso. assert (k' = k) by congruence. subst k'. destruct k; discriminate.
Qed.
Lemma cached_curve_run w coords s k i P l compute : session w -> known_all w -> known_cs w -> In (s, k, i, P) curves ->
  coords = None \/ coords = Some c -> cdone w l s k (compute c (name ++ s)%string) i P ->
  cdone w l s k (cached_curve k m coords s compute) i P.
Proof.
  intros HS Ka Kc Hs Hco H. assert (HS' := HS). destruct HS' as (_ & I & _ & _ & [Hc _] & _ & _ & _ & Hm & Im & Nm & _ & _ & om & G & Hom & Enm & _ & _ & _ & (Cm & _) & _).
  unfold cached_curve, cdone. rewrite (bind_ok _ _ true w w) by (unfold isinstance; rewrite Hm; reflexivity). cbn [negb].
  rewrite (bind_ok _ _ true w w) by (destruct Hco as [-> | ->]; [reflexivity|unfold isinstance; rewrite Hc; reflexivity]). cbn [negb].
  rewrite (bind_ok _ _ om w w) by (apply getobj_ok, Hom).
  rewrite (bind_ok _ _ c w w) by (destruct Hco as [-> | ->]; [apply mopt_ok, Cm|reflexivity]). cbv zeta. rewrite Enm.
  destruct (first_instance_spec w k (name ++ s) (insts w)) as (r & E & Hr); [apply I|].
  rewrite (bind_ok _ _ r w w) by exact E. destruct r as [j|]; [|exact H].
  destruct Hr as (Ij & Nj & Kj). destruct (Kc s k i P Hs j Ij Kj Nj) as (h & Ph & V).
  exists j, w. split.
  - assert (V' := V). destruct V' as (k' & o & a & _ & _ & Ho & _ & _ & _ & (Co & _) & _). rewrite (bind_ok _ _ o w w) by (apply getobj_ok, Ho).
    rewrite Co. cbn [opt_oid_eqb]. rewrite Nat.eqb_refl. reflexivity.
  - split; [exact (session_good w n m c name xs g gi HS)|]. split; [eapply addsn_mono; [|apply addsn_refl]; intros x []|].
    split; [exact Ka|]. split; [exact Kc|]. split; [exact Ij|]. split; [exact Nj|]. split; [exact Kj|exists h; auto].
Qed.

(** *** The functions *)
Ltac vec HS := eapply reach_bind; [eapply (r_vector _ _ _ _ _ _ _ _ HS); eassumption|];
  let F := fresh "F" in let G := fresh "G" in let T := fresh "V" in let x := fresh "v" in let w1 := fresh "w" in
  intros x w1 F G T; lift G; match goal with F' : form _ _ _ _, F'' : form _ _ _ _ |- _ => clear F' end.

Lemma lagrangian_done w coords : session w -> known_all w -> known_cs w -> coords = None \/ coords = Some c ->
  cdone w [(name ++ " Lagrangian")%string] " Lagrangian" CLagrangian (calc_lagrangian m coords) [] (is_lagrangian n xs g).
Proof.
  intros HS Ka Kc Hco. unfold calc_lagrangian.
  assert (Hin : In (" Lagrangian"%string, CLagrangian, [], is_lagrangian n xs g) curves) by (cbn; auto).
  apply (cached_curve_run w coords _ _ _ _ _ _ HS Ka Kc Hin Hco). apply (cdone_end w _ _ _ _ _ Ka Kc Hin).
  assert (F0 := form_base w n m c name xs g gi HS).
  eapply reach_bind; [eapply (r_vector _ _ _ _ _ _ _ _ HS); exact F0|]. intros v w1 F1 _ V.
  eapply reach_bind; [eapply (r_call_new _ _ _ _ _ _ _ _ HS); [exact F1|exact V|reflexivity|reflexivity|reflexivity]|]. intros x w1' _ _ [-> Tx].
  eapply reach_bind; [eapply (r_call_new _ _ _ _ _ _ _ _ HS); [exact F1|exact V|reflexivity|reflexivity|reflexivity]|]. intros y w1' _ _ [-> Ty].
  eapply reach_bind; [eapply (r_square _ _ _ _ _ _ _ _ HS); [exact F1|exact (proj1 Tx)|exact Ty]|]. intros z w2 F2 _ T.
  destruct (r_curve_end w n m c name xs g gi HS keq (fun e => e) CLagrangian w2 z [] [] _ [] (name ++ " Lagrangian") "L" ltac:(discriminate) ltac:(auto) F2 T eq_refl
    ltac:(apply suffix_not_temp; cbn; lia)) as (t & w' & E & G & Ad & It & Nt & Kt & h & Vh & Rh).
  exists t, w'. split; [exact E|]. split; [exact G|]. split; [exact Ad|]. split; [exact It|]. split; [exact Nt|]. split; [exact Kt|]. exists h. split; [|exact Vh].
  unfold is_lagrangian, Lag, lagrangian_of. specialize (Rh (fun _ => 0) (fun y H => match H with end)). cbn [map] in Rh. rewrite Rh.
  apply nsum_ext. intros k Hk. rewrite <- nsum_scale. apply nsum_ext. intros q Hq.
  unfold assign. cbn [index_of String.eqb Ascii.eqb Bool.eqb nth]. unfold cvel, velocity. change (dot (cx xs k)) with (cx xs k ++ "dot")%string. change (dot (cx xs q)) with (cx xs q ++ "dot")%string. ring.
Qed.

Lemma clean_unit e e' : keq e e' -> unit_multiple (clean e) e'.
Proof.
  intros He. destruct (kclean_ok e) as (u & v & Huv & Hu). exists u, v. split; [exact Huv|]. unfold clean. rewrite simp_ok, Hu, He. reflexivity.
Qed.
Lemma unit_ext e e1 e2 : keq e1 e2 -> unit_multiple e e1 -> unit_multiple e e2.
Proof. intros H (u & v & Huv & He). exists u, v. split; [exact Huv|]. rewrite He, H. reflexivity. Qed.

Lemma names_christoffel : forall s k i P, In (s, k, i, P) curves -> ~ In (name ++ s)%string [(name ++ " Christoffel")%string].
Proof.
  intros s k i P H [E|[]]. apply append_inj in E. subst s. cbn in H. repeat (destruct H as [H|H]; [discriminate H|]). destruct H.
Qed.

Lemma geodesic_christoffel_done w coords : session w -> known_all w -> known_cs w -> coords = None \/ coords = Some c ->
  cdone w [(name ++ " Christoffel")%string; (name ++ " Geodesic From Christoffel")%string] " Geodesic From Christoffel" CGeodesic
    (calc_geodesic_christoffel m coords) [1]%Z (is_geodesic n (Geo n xs g gi)).
Proof.
  intros HS Ka Kc Hco. unfold calc_geodesic_christoffel.
  assert (Hin : In (" Geodesic From Christoffel"%string, CGeodesic, [1]%Z, is_geodesic n (Geo n xs g gi)) curves) by (cbn; auto).
  apply (cached_curve_run w coords _ _ _ _ _ _ HS Ka Kc Hin Hco).
  change [(name ++ " Christoffel")%string; (name ++ " Geodesic From Christoffel")%string] with ([(name ++ " Christoffel")%string] ++ [(name ++ " Geodesic From Christoffel")%string]).
  eapply cdone_step; [exact HS|exact Kc|apply christoffel_done; assumption|exact names_christoffel|]. clear w HS Ka Kc.
  intros chr w HS Ka Kc Vc Ic. apply (cdone_end w _ _ _ _ _ Ka Kc Hin).
  assert (F0 := form_base w n m c name xs g gi HS).
  eapply reach_bind; [eapply (r_vector _ _ _ _ _ _ _ _ HS); exact F0|]. intros v w1 F1 G1 Vv. apply proj1 in Vv. lift G1. clear F0.
  eapply reach_bind; [eapply (r_vector _ _ _ _ _ _ _ _ HS); exact F1|]. intros a w2 F2 G2 Va. apply proj1 in Va. lift G2. clear F1.
  call HS Va. call HS Vc. call HS Vv. mul1 HS T0 T1. call HS Vv. mul1 HS T2 T3. sum HS T T4.
  destruct (r_curve_end w n m c name xs g gi HS unit_multiple clean CGeodesic _ _ _ _ _ [1]%Z (name ++ " Geodesic From Christoffel") "0" ltac:(discriminate) clean_unit ltac:(eassumption) T5 eq_refl
    ltac:(apply suffix_not_temp; cbn; lia)) as (t & w' & E & G & Ad & It & Nt & Kt & h & Vh & Rh).
  exists t, w'. split; [exact E|]. split; [exact G|]. split; [exact Ad|]. split; [exact It|]. split; [exact Nt|]. split; [exact Kt|]. exists h. split; [|exact Vh].
  clear - Rh L D C. intros k Hk. specialize (Rh (fun _ => k) (fun y _ => Hk)). eapply unit_ext; [|exact Rh]. clear Rh h.
  unfold Geo, geodesic_of. cbn [map]. unfold at3. cbn [nth]. apply kadd_proper; [reflexivity|].
  rewrite nsum_swap. apply nsum_ext. intros j Hj. rewrite <- nsum_scale_r. apply nsum_ext. intros i Hi.
  unfold assign. cbn [index_of String.eqb Ascii.eqb Bool.eqb nth]. unfold cvel, velocity.
  change (dot (cx xs i)) with (cx xs i ++ "dot")%string. change (dot (cx xs j)) with (cx xs j ++ "dot")%string. ring.
Qed.
(** *** The time coordinate as the parameter *)
Lemma r_read w0 w t i h : session w0 -> form w0 m c w -> tensor_value w n m c t i h -> valid_cfgb i = true ->
  runs w0 m c w (get_components t (Some c) None) (fun a w' => w' = w /\ holds n (length i) a h).
Proof.
  intros HS F (k & o & a & Hk & Nk & Ho & Mo & Ei & Ro & Sd & Ha) V. exists a, w. split; [|split; [exact F|split; [apply grow_refl|auto]]].
  rewrite (get_default_indices w t o (Some c) Ho). eapply stored_default_get; eauto; [apply (form_system w0 n m c name xs g gi HS w F)|rewrite Ei; apply valid_cfgb_spec, V|congruence].
Qed.
Lemma nth_firstn_lt {X} k q (l : list X) x : q < k -> nth q (firstn k l) x = nth q l x.
Proof. revert q l. induction k as [|k IH]; intros q l H; [lia|]. destruct l as [|y l]; [destruct q; reflexivity|]. destruct q as [|q]; [reflexivity|]. cbn. apply IH. lia. Qed.
Lemma slice_holds a h : 1 <= n -> holds n 3 a h -> cubic n (first_slice a) /\ rank (first_slice a) = 2 /\
  forall i j, i < n -> j < n -> keq (aget (first_slice a) [i; j]) (h [0; i; j]).
Proof.
  intros Hn ([Wa Sa] & Ra & Va). rewrite Ra in Sa. cbn [repeat] in Sa. unfold awf in Wa. rewrite Sa in Wa. cbn in Wa.
  assert (Hl : length (firstn (n * (n * 1)) (data a)) = n * (n * 1)) by (apply firstn_length_le; rewrite Wa; nia).
  unfold first_slice, cubic, rank, awf. rewrite Sa. cbn [tl shape data prodn length repeat]. split; [split; [exact Hl|reflexivity]|]. split; [reflexivity|].
  intros i j Hi Hj. rewrite <- Va by (split; [reflexivity|repeat constructor; lia]). unfold aget. cbn [shape data]. rewrite Sa.
  assert (Eo : offset [n; n; n] [0; i; j] = offset [n; n] [i; j]) by (cbn; lia). rewrite Eo. rewrite nth_firstn_lt; [reflexivity|]. cbn. nia.
Qed.

Lemma geodesic_time_done w coords : session w -> known_all w -> known_cs w -> coords = None \/ coords = Some c ->
  cdone w [(name ++ " Christoffel")%string; (name ++ " Geodesic With Time Parameter")%string] " Geodesic With Time Parameter" CGeodesic
    (calc_geodesic_time m coords) [1]%Z (is_geodesic n (Geo_time n xs g gi)).
Proof.
  intros HS Ka Kc Hco. unfold calc_geodesic_time.
  assert (Hin : In (" Geodesic With Time Parameter"%string, CGeodesic, [1]%Z, is_geodesic n (Geo_time n xs g gi)) curves) by (cbn; auto).
  apply (cached_curve_run w coords _ _ _ _ _ _ HS Ka Kc Hin Hco).
  change [(name ++ " Christoffel")%string; (name ++ " Geodesic With Time Parameter")%string] with ([(name ++ " Christoffel")%string] ++ [(name ++ " Geodesic With Time Parameter")%string]).
  eapply cdone_step; [exact HS|exact Kc|apply christoffel_done; assumption|exact names_christoffel|]. clear w HS Ka Kc.
  intros chr w HS Ka Kc Vc Ic. apply (cdone_end w _ _ _ _ _ Ka Kc Hin).
  assert (F0 := form_base w n m c name xs g gi HS). assert (Hn : 1 <= n) by apply HS.
  eapply reach_bind; [eapply (r_vector _ _ _ _ _ _ _ _ HS); exact F0|]. intros v w1 F1 G1 Vv. apply proj1 in Vv. lift G1. clear F0.
  eapply reach_bind; [eapply (r_vector _ _ _ _ _ _ _ _ HS); exact F1|]. intros a w2 F2 G2 Va. apply proj1 in Va. lift G2. clear F1.
  eapply reach_bind; [eapply (r_read w w2 _ _ _ HS F2 Vc eq_refl)|]. intros e w2' _ _ [-> He].
  destruct (slice_holds _ _ Hn He) as (Cs & Rs & Vs).
  eapply reach_bind; [eapply (r_temp _ _ _ _ _ _ _ _ HS w2 _ [-1; -1]%Z (at2 (fun i j => Gam n xs g gi 0 i j)) F2 Cs Rs)|].
  { apply valid_cfgb_spec; reflexivity. }
  { intros idx [Hl Hr]. destruct idx as [|i [|j [|]]]; try discriminate. inversion Hr as [|? ? Hi Hr']; subst. inversion Hr' as [|? ? Hj _]; subst. apply (Vs i j Hi Hj). }
  clear He Cs Rs Vs. intros chr0 w3 F3 G3 V0. apply proj1 in V0. lift G3. clear F2.
  call HS Va. call HS Vc. call HS V0. call HS Vv. mul0 HS T1 T2. sum HS T0 T3. call HS Vv. mul1 HS T4 T5. call HS Vv. mul1 HS T6 T7. sum HS T T8.
  destruct (r_curve_end w n m c name xs g gi HS unit_multiple clean CGeodesic _ _ _ _ _ [1]%Z (name ++ " Geodesic With Time Parameter") "0" ltac:(discriminate) clean_unit ltac:(eassumption) T9 eq_refl
    ltac:(apply suffix_not_temp; cbn; lia)) as (t & w' & E & G & Ad & It & Nt & Kt & h & Vh & Rh).
  exists t, w'. split; [exact E|]. split; [exact G|]. split; [exact Ad|]. split; [exact It|]. split; [exact Nt|]. split; [exact Kt|]. exists h. split; [|exact Vh].
  clear - Rh L D C. intros k Hk. specialize (Rh (fun _ => k) (fun y _ => Hk)). eapply unit_ext; [|exact Rh]. clear Rh h.
  unfold Geo_time, time_geodesic_of. cbn [map]. unfold at3, at2. cbn [nth]. apply kadd_proper; [reflexivity|].
  rewrite nsum_swap. apply nsum_ext. intros j Hj. rewrite <- nsum_scale_r. apply nsum_ext. intros i Hi.
  unfold assign. cbn [index_of String.eqb Ascii.eqb Bool.eqb nth].
  change (if i =? 0 then k1 else ksym (dot (cx xs i))) with (tvel xs i). change (if j =? 0 then k1 else ksym (dot (cx xs j))) with (tvel xs j).
  change (if k =? 0 then k1 else ksym (dot (cx xs k))) with (tvel xs k). ring.
Qed.
(** The first of these equations is 0 = 0. *)
Lemma time_first : keq (Geo_time n xs g gi 0) k0.
Proof.
  unfold Geo_time, time_geodesic_of. unfold tacc at 1. cbn [Nat.eqb]. rewrite nsum_zero'; [ring|]. intros i Hi. apply nsum_zero'. intros j Hj.
  unfold tvel at 1. cbn [Nat.eqb]. ring.
Qed.
End Geod.
