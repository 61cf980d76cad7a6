(** Curvature in two and three dimensions, vacuum and flat metrics, for the computed tensors. *)
From Verif Require Import Alg Alg_P Arr Arr_P Spec Act_P TensorM Tensor_P WorldM SpecWorld CalcM SpecCalc CurvM SpecCurv SpecChange SpecDim Geo_P Curv_P Curv2_P CurvCov3_P CurvCov4_P CurvDim_P.
Local Open Scope nat_scope.

Section Computed.
Context {A : AlgOps} {L : AlgLaws A} {D : DiffLaws A}.
Variables (n : nat) (m c : oid) (name : string) (xs : list string) (g gi : nat -> nat -> K).
Notation session w := (metric_session w n m c name xs g gi).
Notation known w := (known_results n xs g gi w m c name).
Notation gives := (gives n xs g gi).

Lemma value_ext w t i f f' : (forall idx, in_range n (length i) idx -> keq (f idx) (f' idx)) ->
  tensor_value w n m c t i f -> tensor_value w n m c t i f'.
Proof.
  intros H (k & o & a & X1 & X2 & X3 & X4 & X5 & X6 & X7 & X8). exists k, o, a.
  repeat (split; [assumption|]). destruct X8 as (Y1 & Y2 & Y3).
  split; [exact Y1|]. split; [exact Y2|]. intros idx Hx. rewrite (Y3 idx Hx). apply H, Hx.
Qed.
Lemma gives_ext p names i f f' w : (forall idx, in_range n (length i) idx -> keq (f idx) (f' idx)) ->
  gives p m c name names i f w -> gives p m c name names i f' w.
Proof.
  intros H (t & w' & X1 & X2 & X3 & X4). exists t, w'. split; [exact X1|]. split; [exact X2|]. split; [|exact X4].
  eapply value_ext; eassumption.
Qed.
Lemma session_metric w : session w -> symmetric_fun n g /\ inverse_fun n g gi.
Proof. intros H. unfold metric_session in H. tauto. Qed.

Lemma range2 idx : in_range n 2 idx -> nth 0 idx 0 < n /\ nth 1 idx 0 < n.
Proof.
  intros [Hl Hr]. rewrite Forall_forall in Hr. split; apply Hr, nth_In; lia.
Qed.
Lemma range4 idx : in_range n 4 idx -> nth 0 idx 0 < n /\ nth 1 idx 0 < n /\ nth 2 idx 0 < n /\ nth 3 idx 0 < n.
Proof.
  intros [Hl Hr]. rewrite Forall_forall in Hr. repeat split; apply Hr, nth_In; lia.
Qed.

Lemma einstein_two_gives w : session w -> known w -> n = 2 ->
  gives (calc_einstein m) m c name
    [(name ++ " Christoffel"); (name ++ " Riemann"); (name ++ " Ricci Tensor"); (name ++ " Ricci Scalar"); (name ++ " Einstein")]%string
    [-1; -1]%Z (fun _ => k0) w.
Proof.
  intros HS HK Hn. destruct (session_metric w HS) as [Hs Hi].
  eapply gives_ext; [|apply einstein_gives; assumption]. intros idx Hx. destruct (range2 idx Hx) as [B0 B1].
  unfold at2, Ein, Sca, Ric, Rie, Gam. rewrite Hn in *. apply einstein_two; assumption.
Qed.

Lemma weyl_three_gives w : session w -> known w -> n = 3 ->
  (forall j, In j (insts w) -> named w (name ++ " Ricci Tensor") j -> ~ used w j) ->
  exists t w', calc_weyl m w = (Ok t, w') /\ In t (insts w') /\
    tensor_value w' n m c t [-1; -1; -1; -1]%Z (fun _ => k0) /\ session w' /\ known w'.
Proof.
  intros HS HK Hn Free. destruct (session_metric w HS) as [Hs Hi].
  destruct (weyl_gives n m c name xs g gi w HS HK ltac:(lia) Free) as (t & w' & E & It & V & S').
  exists t, w'. split; [exact E|]. split; [exact It|]. split; [|exact S'].
  eapply value_ext; [|exact V]. intros idx Hx. destruct (range4 idx Hx) as (B0 & B1 & B2 & B3).
  unfold at4, Wey, Sca, Ric, Rie, Gam. rewrite Hn in *. apply weyl_three; assumption.
Qed.

Lemma vacuum w : session w -> known w -> n <> 2 ->
  exists t w1 u w2 e r, calc_einstein m w = (Ok t, w1) /\ tensor_value w1 n m c t [-1; -1]%Z e /\
    calc_ricci m w1 = (Ok u, w2) /\ tensor_value w2 n m c u [-1; -1]%Z r /\
    (vanishes n 2 e <-> vanishes n 2 r).
Proof.
  intros HS HK Hn. destruct (session_metric w HS) as [Hs Hi].
  destruct (einstein_gives n m c name xs g gi w HS HK) as (t & w1 & E1 & _ & V1 & _ & S1 & K1).
  destruct (ricci_gives n m c name xs g gi w1 S1 K1) as (u & w2 & E2 & _ & V2 & _).
  exists t, w1, u, w2, (at2 (Ein n xs g gi)), (at2 (Ric n xs g gi)).
  split; [exact E1|]. split; [exact V1|]. split; [exact E2|]. split; [exact V2|].
  assert (T : forall f : nat -> nat -> K, vanishes n 2 (at2 f) <-> forall i j, i < n -> j < n -> keq (f i j) k0).
  { intros f. split; [intros H i j Bi Bj; apply (H [i; j]); split; [reflexivity|repeat constructor; assumption]|].
    intros H idx Hx. destruct (range2 idx Hx). apply H; assumption. }
  rewrite !T. exact (einstein_vacuum n g gi (Ric n xs g gi) Hs Hi Hn).
Qed.
End Computed.

Section Flat.
Context {A : AlgOps} {L : AlgLaws A} {D : DiffLaws A} {SL : SubsLaws A} {IL : InvLaws A}.
Add Ring Kring : kring (setoid keq_equiv kring_ext).
Local Open Scope K_scope.

Section Formula.
Variables (n : nat) (xs : list string) (g gi : nat -> nat -> K).
Hypothesis Hc : forall k i j, (k < n)%nat -> (i < n)%nat -> (j < n)%nat -> kdiff (cx xs k) (g i j) == k0.

Lemma kdiff_zero s a : a == k0 -> kdiff s a == k0.
Proof. intros H. rewrite H. apply kdiff_0. Qed.
Lemma flat_gam i j k : (j < n)%nat -> (k < n)%nat -> Gam n xs g gi i j k == k0.
Proof.
  intros Bj Bk. unfold Gam, christoffel_of. apply nsum_zero'. intros l Bl. rewrite !Hc by assumption. ring.
Qed.
Lemma flat_rie r s a b : (s < n)%nat -> (a < n)%nat -> (b < n)%nat -> Rie n xs g gi r s a b == k0.
Proof.
  intros Bs Ba Bb. unfold Rie, riemann_of. rewrite !kdiff_zero by (apply flat_gam; assumption).
  rewrite !nsum_zero'; [ring| |]; intros l Bl; rewrite flat_gam by assumption; ring.
Qed.
Lemma flat_lowered r s a b : (s < n)%nat -> (a < n)%nat -> (b < n)%nat -> lowered n g (Rie n xs g gi) r s a b == k0.
Proof. intros Bs Ba Bb. unfold lowered. apply nsum_zero'. intros l Bl. rewrite flat_rie by assumption. ring. Qed.
Lemma flat_ric i j : (i < n)%nat -> (j < n)%nat -> Ric n xs g gi i j == k0.
Proof. intros Bi Bj. unfold Ric, ricci_of. apply nsum_zero'. intros l Bl. apply flat_rie; assumption. Qed.
Lemma flat_sca : Sca n xs g gi == k0.
Proof. apply trace_zero. exact flat_ric. Qed.
Lemma flat_ein i j : (i < n)%nat -> (j < n)%nat -> Ein n xs g gi i j == k0.
Proof. intros Bi Bj. unfold Ein, einstein_of. rewrite flat_ric, flat_sca by assumption. ring. Qed.
Lemma flat_wey i k l p : (i < n)%nat -> (k < n)%nat -> (l < n)%nat -> (p < n)%nat -> Wey n xs g gi i k l p == k0.
Proof. intros Bi Bk Bl Bp. unfold Wey, weyl_of. rewrite flat_lowered, !flat_ric, flat_sca by assumption. ring. Qed.
End Formula.

Lemma act_zero n Ms f idx : (forall ks, rng n ks -> length ks = length Ms -> f ks == k0) -> act n Ms f idx == k0.
Proof.
  intros H. unfold act. apply lsum_zero'. intros ks Hk. rewrite H; [ring| |]; apply in_tuples in Hk; tauto.
Qed.

Variable (G : geometry).
Lemma carried r T c : consistent (with_tensor G r T) -> g_sys G c -> vanishes (g_n G) r (T c) ->
  forall d, linked G c d -> g_sys G d /\ vanishes (g_n G) r (T d).
Proof.
  intros (_ & _ & H) Hc Z d Hd. induction Hd as [|d d' R Hd [IH1 IH2] E]; [split; assumption|].
  destruct (H d d' R IH1 E) as (H1 & _ & H2 & _). split; [exact H1|].
  intros idx Hx. rewrite (H2 idx Hx). cbn. transitivity (subs_seq R k0); [|apply hom_0, hom_subs_seq].
  apply (hom_proper _ (hom_subs_seq R)). apply act_zero. intros ks Hk Hl. apply IH2. split; [|exact Hk].
  rewrite repeat_length in Hl. exact Hl.
Qed.
Lemma carried_zero r T p m c w : consistent (with_tensor G r T) -> g_sys G c -> vanishes (g_n G) r (T c) ->
  (forall d ks, rng (g_n G) ks -> exists ks', in_range (g_n G) r ks' /\ T d ks = T d ks') ->
  gives_everywhere G p m r T w -> forall d, linked G c d -> gives_zero G p m r d w.
Proof.
  intros HC Hc Z HT E d Hd t w' ops i a w'' Hp Nt Ho Hg. destruct (E t w' Hp Nt) as [_ X].
  destruct (X ops d i a w'' Ho Hg) as (Y1 & Y2 & Y3). destruct (carried r T c HC Hc Z d Hd) as [_ V].
  split; [exact Y1|]. split; [exact Y2|]. intros idx Hx. rewrite (Y3 idx Hx). apply act_zero. intros ks Hk _.
  destruct (HT d ks Hk) as (ks' & H1 & ->). apply V, H1.
Qed.

Hypothesis HC : consistent G.
Hypothesis HR : regular G.
Variables (m c : oid) (name : string) (w : world).
Hypothesis Hc : g_sys G c.
Hypothesis Hk : constant_metric G c.
Hypothesis HS : metric_session w (g_n G) m c name (g_syms G c) (SpecWorld.g_G G c) (g_Gi G c).
Hypothesis HK : known_results (g_n G) (g_syms G c) (SpecWorld.g_G G c) (g_Gi G c) w m c name.
Hypothesis HM : metric_represents G m w.
Hypothesis HT : forall k, g_sys G k -> ~ named w "TEMP" k.

Lemma n_pos : (0 < g_n G)%nat.
Proof. destruct HC as (H & _). lia. Qed.
Lemma nth_rng k ks : rng (g_n G) ks -> (nth k ks 0 < g_n G)%nat.
Proof.
  intros H. destruct (Nat.lt_ge_cases k (length ks)) as [B|B].
  - unfold rng in H. rewrite Forall_forall in H. apply H, nth_In, B.
  - rewrite nth_overflow by exact B. exact n_pos.
Qed.
Lemma as2 (f : nat -> nat -> K) ks : rng (g_n G) ks -> exists ks', in_range (g_n G) 2 ks' /\ at2 f ks = at2 f ks'.
Proof.
  intros H. exists [nth 0 ks 0; nth 1 ks 0]%nat. split; [|reflexivity].
  split; [reflexivity|]. repeat (apply Forall_cons; [apply nth_rng, H|]). apply Forall_nil.
Qed.
Lemma as4 (f : nat -> nat -> nat -> nat -> K) ks : rng (g_n G) ks -> exists ks', in_range (g_n G) 4 ks' /\ at4 f ks = at4 f ks'.
Proof.
  intros H. exists [nth 0 ks 0; nth 1 ks 0; nth 2 ks 0; nth 3 ks 0]%nat. split; [|reflexivity].
  split; [reflexivity|]. repeat (apply Forall_cons; [apply nth_rng, H|]). apply Forall_nil.
Qed.

Lemma flat_everywhere d : linked G c d ->
  gives_zero G (calc_riemann m) m 4 d w /\ gives_zero G (calc_ricci m) m 2 d w /\
  gives_zero G (calc_ricci_scalar m) m 0 d w /\ gives_zero G (calc_einstein m) m 2 d w.
Proof.
  intros Hd. split; [|split; [|split]].
  - eapply (carried_zero 4 (geo_riemann G)); [apply consistent_riemann; assumption|exact Hc| | |apply (riemann_everywhere G m c name); assumption|exact Hd].
    + intros idx Hx. destruct (range4 _ _ Hx) as (B0 & B1 & B2 & B3). apply flat_lowered; [exact Hk|assumption..].
    + intros e ks H. apply as4, H.
  - eapply (carried_zero 2 (geo_ricci G)); [apply consistent_ricci; assumption|exact Hc| | |apply (ricci_everywhere G m c name); assumption|exact Hd].
    + intros idx Hx. destruct (range2 _ _ Hx) as (B0 & B1). apply flat_ric; [exact Hk|assumption..].
    + intros e ks H. apply as2, H.
  - eapply (carried_zero 0 (geo_scalar G)); [apply consistent_scalar; assumption|exact Hc| | |apply (scalar_everywhere G m c name); assumption|exact Hd].
    + intros idx Hx. apply flat_sca, Hk.
    + intros e ks H. exists []. split; [split; [reflexivity|apply Forall_nil]|reflexivity].
  - eapply (carried_zero 2 (geo_einstein G)); [apply consistent_einstein; assumption|exact Hc| | |apply (einstein_everywhere G m c name); assumption|exact Hd].
    + intros idx Hx. destruct (range2 _ _ Hx) as (B0 & B1). apply flat_ein; [exact Hk|assumption..].
    + intros e ks H. apply as2, H.
Qed.
Lemma flat_weyl_everywhere d : linked G c d -> (3 <= g_n G)%nat ->
  (forall j, In j (insts w) -> named w (name ++ " Ricci Tensor") j -> ~ used w j) ->
  gives_zero G (calc_weyl m) m 4 d w.
Proof.
  intros Hd Hn Free. eapply (carried_zero 4 (geo_weyl G)); [apply consistent_weyl; assumption|exact Hc| | |apply (weyl_everywhere G m c name); assumption|exact Hd].
  - intros idx Hx. destruct (range4 _ _ Hx) as (B0 & B1 & B2 & B3). apply flat_wey; [exact Hk|assumption..].
  - intros e ks H. apply as4, H.
Qed.
End Flat.

Lemma flat_christoffel {A : AlgOps} {L : AlgLaws A} {D : DiffLaws A} n m c name xs (g gi : nat -> nat -> K) w :
  (forall k i j, k < n -> i < n -> j < n -> keq (kdiff (nth k xs ""%string) (g i j)) k0) ->
  metric_session w n m c name xs g gi -> known_results n xs g gi w m c name ->
  gives n xs g gi (calc_christoffel m) m c name [(name ++ " Christoffel")%string] [1; -1; -1]%Z (fun _ => k0) w.
Proof.
  intros Hk HS HK. eapply gives_ext; [|apply christoffel_gives; assumption]. intros idx [Hl Hr]. unfold at3.
  rewrite Forall_forall in Hr. apply flat_gam; [exact Hk|apply Hr, nth_In; cbn in Hl; lia..].
Qed.
