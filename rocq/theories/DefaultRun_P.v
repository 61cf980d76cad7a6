(** The curvature of the metrics of Defaults.py: the computed tensors. *)
From Verif Require Import Alg Alg_P Arr Arr_P Spec Act_P TensorM WorldM SpecWorld CalcM SpecCalc CurvM SpecCurv SpecDim SpecConst SpecDefault Curv_P Curv2_P CurvDim_P CurvDim2_P CurvConst_P Scale_P Norm_P Block_P Default_P Diag_P.
Local Open Scope K_scope.

Section Computed.
Context {A : AlgOps} {L : AlgLaws A} {D : DiffLaws A}.
Add Ring Kring : kring (setoid keq_equiv kring_ext).
Variables (m c : oid) (name : string) (xs : list string) (g gi : nat -> nat -> K) (w : world).
Hypothesis HS : metric_session w 4 m c name xs g gi.
Notation gives := (gives 4 xs g gi).

Lemma delta_diag (l : list K) i j : diagonal l i j == kdelta i j * nth i l k0.
Proof. unfold diagonal, kdelta. destruct (i =? j); ring. Qed.

(** Any metric given by tables *)
Section Tables.
Variables (dl el : list K) (G : nat -> nat -> nat -> K) (q : nat -> nat -> K).
Hypothesis Hg : forall i j, (i < 4)%nat -> (j < 4)%nat -> g i j == diagonal dl i j.
Hypothesis Hgi : forall i j, (i < 4)%nat -> (j < 4)%nat -> gi i j == diagonal el i j.
Hypothesis HG : forall i j k, (i < 4)%nat -> (j < 4)%nat -> (k < 4)%nat -> Gam 4 xs g gi i j k == G i j k.
Hypothesis HR : forall i j l m, (i < 4)%nat -> (j < 4)%nat -> (l < 4)%nat -> (m < 4)%nat -> Rie 4 xs g gi i j l m == planes g q i j l m.
Hypothesis Hq : forall i, (i < 4)%nat -> q i i == k0.
Notation Q i := (nsum 4 (fun l => q l i)).

Lemma t_g i j : (i < 4)%nat -> (j < 4)%nat -> g i j == kdelta i j * nth i dl k0.
Proof. intros Bi Bj. rewrite Hg by assumption. apply delta_diag. Qed.
Lemma t_gi i j : (i < 4)%nat -> (j < 4)%nat -> gi i j == kdelta i j * nth i el k0.
Proof. intros Bi Bj. rewrite Hgi by assumption. apply delta_diag. Qed.
Lemma t_de i : (i < 4)%nat -> nth i dl k0 * nth i el k0 == k1.
Proof.
  intros Bi. destruct (session_metric 4 m c name xs g gi w HS) as [_ [H _]]. assert (E := H i i Bi Bi). rewrite dd in E. rewrite <- E.
  transitivity (nsum 4 (fun k => kdelta i k * (nth i dl k0 * gi k i))).
  - rewrite (nsum_delta_l 4 i (fun k => nth i dl k0 * gi k i) Bi), t_gi by assumption. rewrite dd. ring.
  - apply nsum_ext. intros k Bk. rewrite (t_g i k) by assumption. ring.
Qed.
Lemma t_ric i j : (i < 4)%nat -> (j < 4)%nat -> Ric 4 xs g gi i j == Q i * g i j.
Proof. exact (planes_ricci 4 g (fun i => nth i dl k0) q (Rie 4 xs g gi) t_g Hq HR i j). Qed.
Lemma t_sca : Sca 4 xs g gi == nsum 4 (fun i => Q i).
Proof. exact (planes_scalar 4 g gi (fun i => nth i dl k0) (fun i => nth i el k0) q (Rie 4 xs g gi) t_g t_gi t_de Hq HR). Qed.
Lemma t_ein i j : (i < 4)%nat -> (j < 4)%nat -> Ein 4 xs g gi i j == (Q i - kinvn 2 * Sca 4 xs g gi) * g i j.
Proof. exact (planes_einstein 4 g q (Ric 4 xs g gi) (Sca 4 xs g gi) i j t_ric). Qed.
Lemma t_wey i k l p : (i < 4)%nat -> (k < 4)%nat -> (l < 4)%nat -> (p < 4)%nat ->
  Wey 4 xs g gi i k l p == (q i k - kinvn 2 * (Q i + Q k) + kinvn 6 * Sca 4 xs g gi) * (g i l * g k p - g i p * g k l).
Proof. exact (planes_weyl 4 g (fun i => nth i dl k0) q (Rie 4 xs g gi) t_g Hq HR (Sca 4 xs g gi) i k l p). Qed.

Lemma t_computed (Rt : nat -> K) (St : K) (Et : nat -> K) : known_results 4 xs g gi w m c name ->
  (forall i, (i < 4)%nat -> Q i == Rt i) -> nsum 4 Rt == St + St -> (forall i, (i < 4)%nat -> Rt i - St == Et i) ->
  gives (calc_christoffel m) m c name [(name ++ " Christoffel")%string] [1; -1; -1]%Z (at3 G) w /\
  gives (calc_riemann m) m c name [(name ++ " Christoffel"); (name ++ " Riemann")]%string [1; -1; -1; -1]%Z (at4 (planes g q)) w /\
  gives (calc_ricci m) m c name [(name ++ " Christoffel"); (name ++ " Riemann"); (name ++ " Ricci Tensor")]%string [-1; -1]%Z
    (at2 (fun i j => Rt i * g i j)) w /\
  gives (calc_ricci_scalar m) m c name [(name ++ " Christoffel"); (name ++ " Riemann"); (name ++ " Ricci Tensor"); (name ++ " Ricci Scalar")]%string []
    (fun _ => St + St) w /\
  gives (calc_einstein m) m c name [(name ++ " Christoffel"); (name ++ " Riemann"); (name ++ " Ricci Tensor"); (name ++ " Ricci Scalar"); (name ++ " Einstein")]%string [-1; -1]%Z
    (at2 (fun i j => Et i * g i j)) w.
Proof.
  intros HK H1 H2 H3. assert (Sc : Sca 4 xs g gi == St + St).
  { rewrite t_sca, <- H2. apply nsum_ext. intros i Bi. apply H1, Bi. }
  split; [|split; [|split; [|split]]].
  - eapply gives_ext; [|apply christoffel_gives; assumption]. intros idx Hx. destruct (range3 4 idx Hx) as (B0 & B1 & B2). apply (HG _ _ _ B0 B1 B2).
  - eapply gives_ext; [|apply riemann_gives; assumption]. intros idx Hx. destruct (range4 4 idx Hx) as (B0 & B1 & B2 & B3). apply (HR _ _ _ _ B0 B1 B2 B3).
  - eapply gives_ext; [|apply ricci_gives; assumption]. intros idx Hx. destruct (range2 4 idx Hx) as (B0 & B1). unfold at2. rewrite t_ric by assumption. rewrite (H1 _ B0). reflexivity.
  - eapply gives_ext; [|apply scalar_gives; assumption]. intros idx Hx. exact Sc.
  - eapply gives_ext; [|apply einstein_gives; assumption]. intros idx Hx. destruct (range2 4 idx Hx) as (B0 & B1). unfold at2.
    rewrite t_ein by assumption. rewrite (H1 _ B0), Sc, half_double, (H3 _ B0). reflexivity.
Qed.
Lemma t_weyl (f : nat -> nat -> K) : known_results 4 xs g gi w m c name ->
  (forall j, In j (insts w) -> named w (name ++ " Ricci Tensor") j -> ~ used w j) ->
  (forall i k, (i < 4)%nat -> (k < 4)%nat -> i <> k -> q i k - kinvn 2 * (Q i + Q k) + kinvn 6 * Sca 4 xs g gi == f i k) ->
  exists t w', calc_weyl m w = (Ok t, w') /\ In t (insts w') /\
    tensor_value w' 4 m c t [-1; -1; -1; -1]%Z (at4 (fun i k l p => f i k * (g i l * g k p - g i p * g k l))) /\
    metric_session w' 4 m c name xs g gi /\ known_results 4 xs g gi w' m c name.
Proof.
  intros HK Free Hf. destruct (weyl_gives 4 m c name xs g gi w HS HK ltac:(lia) Free) as (t & w' & E & It & V & S').
  exists t, w'. split; [exact E|]. split; [exact It|]. split; [|exact S'].
  eapply value_ext; [|exact V]. intros idx Hx. destruct (range4 4 idx Hx) as (B0 & B1 & B2 & B3). unfold at4. rewrite t_wey by assumption.
  destruct (Nat.eq_dec (nth 0 idx 0%nat) (nth 1 idx 0%nat)) as [E1|N1]; [rewrite E1; ring|]. rewrite Hf by assumption. reflexivity.
Qed.
Lemma t_norm t tn (s : K) : named w tn t -> tn <> "TEMP"%string ->
  tensor_value w 4 m c t [1; -1; -1; -1]%Z (at4 (planes g q)) -> stored_right w 4 c t g gi [1; -1; -1; -1]%Z (at4 (planes g q)) ->
  cls_of w t <> Some CMetric -> (forall j, In j (insts w) -> ~ named w (tn ++ " Norm Squared") j) ->
  nsum 4 (fun i => nsum 4 (fun j => (k1 + k1) * (q i j * q i j))) == s ->
  exists u w', calc_norm_squared t w = (Ok u, w') /\ In u (insts w') /\ named w' (tn ++ " Norm Squared") u /\
    tensor_value w' 4 m c u [] (fun _ => s).
Proof.
  intros Nt NT V SR NM Fr Hs. destruct (norm_run 4 m c name xs g gi w t _ _ tn HS Nt NT V SR) as (u & w' & E & Iu & Nu & Vu & _).
  - intros H. contradiction.
  - intros j Hj Hn. exfalso. exact (Fr j Hj Hn).
  - exists u, w'. split; [exact E|]. split; [exact Iu|]. split; [exact Nu|]. eapply value_ext; [|exact Vu]. intros idx _. rewrite <- Hs.
    apply (planes_norm 4 g gi (fun i => nth i dl k0) (fun i => nth i el k0) q (planes g q) t_g t_gi t_de Hq). reflexivity.
Qed.
End Tables.

Section Schwarzschild.
Variables (M R Ri S Si C Fi : K).
Hypothesis Hf : spherical_functions xs R Ri S Si C.
Hypothesis HM : constant_in xs M.
Hypothesis HF : horizon_function M Ri * Fi == k1.
Hypothesis Hg : forall i j, (i < 4)%nat -> (j < 4)%nat -> g i j == schwarzschild M R Ri S Fi i j.
Notation u := (M * (Ri * Ri * Ri)).
Notation q := (schwarzschild_planes u).

Lemma sw_gi i j : (i < 4)%nat -> (j < 4)%nat -> gi i j == s_gi M Ri Si Fi i j.
Proof.
  destruct (session_metric 4 m c name xs g gi w HS) as [_ Hi].
  exact (four_inverse g gi _ _ Hi Hg (s_inverse xs M R Ri S Si C Fi Hf HF) i j).
Qed.
Lemma sw_gam i j k : (i < 4)%nat -> (j < 4)%nat -> (k < 4)%nat -> Gam 4 xs g gi i j k == schwarzschild_gamma M R Ri S Si C Fi i j k.
Proof.
  destruct (session_metric 4 m c name xs g gi w HS) as [_ Hi].
  exact (four_gam xs g gi _ _ Hi Hg (s_inverse xs M R Ri S Si C Fi Hf HF) _ (s_dg_ok xs M R Ri S Si C Fi Hf HM HF) _ (s_G_ok xs M R Ri S Si C Fi Hf HF) i j k).
Qed.
Lemma sw_rie i j l p : (i < 4)%nat -> (j < 4)%nat -> (l < 4)%nat -> (p < 4)%nat -> Rie 4 xs g gi i j l p == planes g q i j l p.
Proof.
  destruct (session_metric 4 m c name xs g gi w HS) as [_ Hi].
  exact (four_rie xs g gi _ _ Hi Hg (s_inverse xs M R Ri S Si C Fi Hf HF) _ (s_dg_ok xs M R Ri S Si C Fi Hf HM HF) _ (s_G_ok xs M R Ri S Si C Fi Hf HF) _
    (s_dG_ok xs M R Ri S Si C Fi Hf HM HF) _ (s_rie xs M R Ri S Si C Fi Hf HF) i j l p).
Qed.
Lemma sw_q i : (i < 4)%nat -> q i i == k0.
Proof. intros B. four i; reflexivity. Qed.
Lemma sw_Q i : (i < 4)%nat -> nsum 4 (fun l => q l i) == k0.
Proof. intros B. rewrite sum4. four i; cbn [schwarzschild_planes]; ring. Qed.
Lemma schwarzschild_computed : known_results 4 xs g gi w m c name ->
  gives (calc_christoffel m) m c name [(name ++ " Christoffel")%string] [1; -1; -1]%Z (at3 (schwarzschild_gamma M R Ri S Si C Fi)) w /\
  gives (calc_riemann m) m c name [(name ++ " Christoffel"); (name ++ " Riemann")]%string [1; -1; -1; -1]%Z (at4 (planes g q)) w /\
  gives (calc_ricci m) m c name [(name ++ " Christoffel"); (name ++ " Riemann"); (name ++ " Ricci Tensor")]%string [-1; -1]%Z (fun _ => k0) w /\
  gives (calc_ricci_scalar m) m c name [(name ++ " Christoffel"); (name ++ " Riemann"); (name ++ " Ricci Tensor"); (name ++ " Ricci Scalar")]%string [] (fun _ => k0) w /\
  gives (calc_einstein m) m c name [(name ++ " Christoffel"); (name ++ " Riemann"); (name ++ " Ricci Tensor"); (name ++ " Ricci Scalar"); (name ++ " Einstein")]%string [-1; -1]%Z (fun _ => k0) w.
Proof.
  intros HK. destruct (t_computed _ _ _ _ Hg sw_gi sw_gam sw_rie sw_q (fun _ => k0) k0 (fun _ => k0) HK sw_Q ltac:(rewrite sum4; ring) ltac:(intros; ring)) as (X1 & X2 & X3 & X4 & X5).
  split; [exact X1|]. split; [exact X2|]. split; [|split]; (eapply gives_ext; [|eassumption]); intros; unfold at2; ring.
Qed.
Lemma schwarzschild_weyl : known_results 4 xs g gi w m c name -> (forall j, In j (insts w) -> named w (name ++ " Ricci Tensor") j -> ~ used w j) ->
  exists t w', calc_weyl m w = (Ok t, w') /\ In t (insts w') /\
    tensor_value w' 4 m c t [-1; -1; -1; -1]%Z (at4 (fun i k l p => q i k * (g i l * g k p - g i p * g k l))) /\
    metric_session w' 4 m c name xs g gi /\ known_results 4 xs g gi w' m c name.
Proof.
  intros HK Free. apply (t_weyl _ _ Hg sw_rie sw_q q HK Free). intros i k Bi Bk _.
  rewrite (t_sca _ _ _ Hg sw_gi sw_rie sw_q), !sw_Q by assumption. rewrite sum4, !sw_Q by lia. ring.
Qed.
Lemma schwarzschild_norm t tn : named w tn t -> tn <> "TEMP"%string ->
  tensor_value w 4 m c t [1; -1; -1; -1]%Z (at4 (planes g q)) -> stored_right w 4 c t g gi [1; -1; -1; -1]%Z (at4 (planes g q)) ->
  cls_of w t <> Some CMetric -> (forall j, In j (insts w) -> ~ named w (tn ++ " Norm Squared") j) ->
  exists v w', calc_norm_squared t w = (Ok v, w') /\ In v (insts w') /\ named w' (tn ++ " Norm Squared") v /\
    tensor_value w' 4 m c v [] (fun _ => knat 48 * (u * u)).
Proof.
  intros Nt NT V SR NM Fr. apply (t_norm _ _ _ Hg sw_gi sw_q t tn _ Nt NT V SR NM Fr).
  rewrite sum4, !sum4. cbn [schwarzschild_planes knat]. ring.
Qed.
End Schwarzschild.

Section Flrw.
Variables (a ai a1 a2 k R Ri S Si C Wi : K).
Hypothesis Hf : spherical_functions xs R Ri S Si C.
Hypothesis Hk : constant_in xs k.
Hypothesis Ha : a * ai == k1.
Hypothesis Ha1 : depends_on xs 0 a a1.
Hypothesis Ha2 : depends_on xs 0 a1 a2.
Hypothesis HW : curvature_function k R * Wi == k1.
Hypothesis Hg : forall i j, (i < 4)%nat -> (j < 4)%nat -> g i j == flrw a R S Wi i j.
Notation u := (a2 * ai).
Notation v := ((a1 * a1 + k) * (ai * ai)).
Notation q := (flrw_planes u v).

Lemma fl_gi i j : (i < 4)%nat -> (j < 4)%nat -> gi i j == f_gi ai k R Ri Si i j.
Proof.
  destruct (session_metric 4 m c name xs g gi w HS) as [_ Hi].
  exact (four_inverse g gi _ _ Hi Hg (f_inverse xs a ai k R Ri S Si C Wi Hf Ha HW) i j).
Qed.
Lemma fl_gam i j l : (i < 4)%nat -> (j < 4)%nat -> (l < 4)%nat -> Gam 4 xs g gi i j l == flrw_gamma a ai a1 k R Ri S Si C Wi i j l.
Proof.
  destruct (session_metric 4 m c name xs g gi w HS) as [_ Hi].
  exact (four_gam xs g gi _ _ Hi Hg (f_inverse xs a ai k R Ri S Si C Wi Hf Ha HW) _ (f_dg_ok xs a a1 k R Ri S Si C Wi Hf Hk Ha1 HW) _
    (f_G_ok xs a ai a1 k R Ri S Si C Wi Hf Ha HW) i j l).
Qed.
Lemma fl_rie i j l p : (i < 4)%nat -> (j < 4)%nat -> (l < 4)%nat -> (p < 4)%nat -> Rie 4 xs g gi i j l p == planes g q i j l p.
Proof.
  destruct (session_metric 4 m c name xs g gi w HS) as [_ Hi].
  exact (four_rie xs g gi _ _ Hi Hg (f_inverse xs a ai k R Ri S Si C Wi Hf Ha HW) _ (f_dg_ok xs a a1 k R Ri S Si C Wi Hf Hk Ha1 HW) _
    (f_G_ok xs a ai a1 k R Ri S Si C Wi Hf Ha HW) _ (f_dG_ok xs a ai a1 a2 k R Ri S Si C Wi Hf Hk Ha Ha1 Ha2 HW) _
    (f_rie xs a ai a1 a2 k R Ri S Si C Wi Hf Ha HW) i j l p).
Qed.
Lemma fl_q i : (i < 4)%nat -> q i i == k0.
Proof. intros B. four i; reflexivity. Qed.
Definition fl_ric (i : nat) : K := if i =? 0 then knat 3 * u else u + knat 2 * v.
Definition fl_ein (i : nat) : K := if i =? 0 then - (knat 3 * v) else - (knat 2 * u + v).
Lemma fl_Q i : (i < 4)%nat -> nsum 4 (fun l => q l i) == fl_ric i.
Proof. intros B. rewrite sum4. unfold fl_ric. four i; cbn [flrw_planes Nat.eqb knat]; ring. Qed.
Lemma flrw_computed : known_results 4 xs g gi w m c name ->
  gives (calc_christoffel m) m c name [(name ++ " Christoffel")%string] [1; -1; -1]%Z (at3 (flrw_gamma a ai a1 k R Ri S Si C Wi)) w /\
  gives (calc_riemann m) m c name [(name ++ " Christoffel"); (name ++ " Riemann")]%string [1; -1; -1; -1]%Z (at4 (planes g q)) w /\
  gives (calc_ricci m) m c name [(name ++ " Christoffel"); (name ++ " Riemann"); (name ++ " Ricci Tensor")]%string [-1; -1]%Z
    (at2 (fun i j => (if i =? 0 then knat 3 * u else u + knat 2 * v) * g i j)) w /\
  gives (calc_ricci_scalar m) m c name [(name ++ " Christoffel"); (name ++ " Riemann"); (name ++ " Ricci Tensor"); (name ++ " Ricci Scalar")]%string []
    (fun _ => knat 6 * (u + v)) w /\
  gives (calc_einstein m) m c name [(name ++ " Christoffel"); (name ++ " Riemann"); (name ++ " Ricci Tensor"); (name ++ " Ricci Scalar"); (name ++ " Einstein")]%string [-1; -1]%Z
    (at2 (fun i j => (if i =? 0 then - (knat 3 * v) else - (knat 2 * u + v)) * g i j)) w.
Proof.
  intros HK. destruct (t_computed _ _ _ _ Hg fl_gi fl_gam fl_rie fl_q fl_ric (knat 3 * (u + v)) fl_ein HK fl_Q) as (X1 & X2 & X3 & X4 & X5).
  - rewrite sum4. unfold fl_ric. cbn [Nat.eqb knat]. ring.
  - intros i Bi. unfold fl_ric, fl_ein. destruct (i =? 0); cbn [knat]; ring.
  - split; [exact X1|]. split; [exact X2|]. split; [exact X3|]. split; [|exact X5]. eapply gives_ext; [|exact X4]. intros idx _. cbn [knat]. ring.
Qed.
Lemma flrw_weyl : known_results 4 xs g gi w m c name -> (forall j, In j (insts w) -> named w (name ++ " Ricci Tensor") j -> ~ used w j) ->
  exists t w', calc_weyl m w = (Ok t, w') /\ In t (insts w') /\
    tensor_value w' 4 m c t [-1; -1; -1; -1]%Z (fun _ => k0) /\ metric_session w' 4 m c name xs g gi /\ known_results 4 xs g gi w' m c name.
Proof.
  intros HK Free. destruct (t_weyl _ _ Hg fl_rie fl_q (fun _ _ => k0) HK Free) as (t & w' & E & It & V & X).
  - intros i j Bi Bj Nij. rewrite (t_sca _ _ _ Hg fl_gi fl_rie fl_q), !fl_Q by assumption. rewrite sum4, !fl_Q by lia.
    assert (H2 := kinvn_ok 2 ltac:(discriminate)). assert (H6 := kinvn_ok 6 ltac:(discriminate)). cbn [knat] in H2, H6.
    assert (E2 : (k1 + k1) * kinvn 2 == k1) by (etransitivity; [|exact H2]; ring). assert (E6 : (k1 + k1 + k1 + k1 + k1 + k1) * kinvn 6 == k1) by (etransitivity; [|exact H6]; ring).
    unfold fl_ric, flrw_planes. four i; four j; try congruence; cbn [Nat.eqb knat]; ring [E2 E6].
  - exists t, w'. split; [exact E|]. split; [exact It|]. split; [|exact X]. eapply value_ext; [|exact V]. intros. unfold at4. ring.
Qed.
Lemma flrw_norm t tn : named w tn t -> tn <> "TEMP"%string ->
  tensor_value w 4 m c t [1; -1; -1; -1]%Z (at4 (planes g q)) -> stored_right w 4 c t g gi [1; -1; -1; -1]%Z (at4 (planes g q)) ->
  cls_of w t <> Some CMetric -> (forall j, In j (insts w) -> ~ named w (tn ++ " Norm Squared") j) ->
  exists s w', calc_norm_squared t w = (Ok s, w') /\ In s (insts w') /\ named w' (tn ++ " Norm Squared") s /\
    tensor_value w' 4 m c s [] (fun _ => knat 12 * (u * u + v * v)).
Proof.
  intros Nt NT V SR NM Fr. apply (t_norm _ _ _ Hg fl_gi fl_q t tn _ Nt NT V SR NM Fr).
  rewrite sum4, !sum4. unfold flrw_planes. cbn [Nat.eqb knat]. ring.
Qed.
End Flrw.
End Computed.
