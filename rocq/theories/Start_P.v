(** A new metric starts a session in which curvature can be computed. *)
From Verif Require Import Alg Alg_P Arr Arr_P Spec UtilsM Arr2_P Act_P TensorM RL_P Tensor_P Jacobian_P WorldM SpecWorld World_P Registry_P Metric_P CalcM SpecCalc Calc_P CurvM SpecCurv SpecStart WrapM Wrap_P.
Local Open Scope nat_scope.

Section Start.
Context {A : AlgOps}.

Lemma added_old w w' t j o : added w w' t -> obj_of w j = Some o -> obj_of w' j = Some o /\ cls_of w' j = cls_of w j.
Proof. intros (H1 & _ & H3) Ho. assert (N : j <> t) by congruence. destruct (H3 j N) as [E1 E2]. rewrite E1. auto. Qed.
Lemma added_cls w w' t j k : added w w' t -> (cls_of w t = None) -> cls_of w j = Some k -> cls_of w' j = Some k.
Proof. intros (_ & _ & H3) Ht Hc. assert (N : j <> t) by congruence. destruct (H3 j N) as [_ ->]. exact Hc. Qed.
Lemma added_named w w' t s j : added w w' t -> j <> t -> named w' s j <-> named w s j.
Proof. intros (_ & _ & H3) N. unfold named. destruct (H3 j N) as [-> _]. reflexivity. Qed.
Lemma added_in w w' t j : added w w' t -> In j (insts w') <-> In j (insts w) \/ j = t.
Proof. intros (_ & H2 & _). rewrite H2, in_app_iff. cbn. intuition. Qed.
Lemma added_chart w w' t n c xs : added w w' t -> chart w n c xs -> chart w' n c xs.
Proof.
  intros Ad (H1 & [Hc (o & d & x & Ho & Hx)] & Hi & Hn & (oc & Hoc & Hs)).
  destruct (added_old _ _ _ _ _ Ad Ho) as [Ho' Hc']. split; [exact H1|].
  assert (Nc : c <> t) by (destruct Ad as [H _]; congruence).
  split; [split; [congruence|exists o, d, x; auto]|]. split; [apply (added_in _ _ _ _ Ad); auto|].
  split; [rewrite (added_named _ _ _ _ _ Ad Nc); exact Hn|]. exists oc. split; [|exact Hs]. rewrite Hoc in Ho. congruence.
Qed.
Lemma session_chart w n m c name xs g gi : metric_session w n m c name xs g gi -> in_order w /\ chart w n c xs.
Proof. intros (H1 & H2 & H3 & H4 & H5 & H6 & H7 & H8 & _). split; [split; auto|]. repeat (split; [assumption|]). exact H8. Qed.
Lemma added_session w w' t n m c name xs g gi : added w w' t -> in_order w' ->
  metric_session w n m c name xs g gi -> metric_session w' n m c name xs g gi.
Proof.
  intros Ad (O1 & O2 & O3) H. destruct (session_chart _ _ _ _ _ _ _ _ H) as [_ Hch]. apply (added_chart _ _ _ _ _ _ Ad) in Hch as (C1 & C2 & C3 & C4 & C5).
  destruct H as (_ & _ & _ & _ & _ & _ & _ & _ & M1 & M2 & M3 & M4 & M5 & (o & G & Ho & M6)).
  destruct (added_old _ _ _ _ _ Ad Ho) as [Ho' Hc']. assert (Nm : m <> t) by (destruct Ad as [E _]; congruence).
  repeat (split; [assumption|]). split; [congruence|]. split; [apply (added_in _ _ _ _ Ad); auto|].
  split; [rewrite (added_named _ _ _ _ _ Ad Nm); exact M3|]. split; [exact M4|]. split; [exact M5|]. exists o, G. split; [exact Ho'|exact M6].
Qed.
Lemma added_value w w' t n m c j i f : added w w' t -> tensor_value w n m c j i f -> tensor_value w' n m c j i f.
Proof.
  intros Ad (k & o & a & H1 & H2 & Ho & H3). destruct (added_old _ _ _ _ _ Ad Ho) as [Ho' Hc']. exists k, o, a. rewrite Hc'. auto.
Qed.
Lemma added_known_one w w' t n m c s i f : added w w' t -> ~ named w' s t -> known w n m c s i f -> known w' n m c s i f.
Proof.
  intros Ad N K j Hj Hn. assert (Nj : j <> t) by congruence. apply (added_in _ _ _ _ Ad) in Hj as [Hj|Hj]; [|contradiction].
  apply (added_value _ _ _ _ _ _ _ _ _ Ad). apply K; [exact Hj|]. apply (added_named _ _ _ _ _ Ad Nj), Hn.
Qed.
Lemma added_known w w' t n m c name xs g gi : added w w' t -> (forall s, named w' s t -> ~ In s (result_names name)) ->
  known_results n xs g gi w m c name -> known_results n xs g gi w' m c name.
Proof.
  intros Ad N (K1 & K2 & K3 & K4 & K5 & K6).
  assert (X : forall s, In s (result_names name) -> ~ named w' s t) by (intros s Hs Hn; exact (N s Hn Hs)).
  unfold result_names in X. cbn [map] in X.
  repeat split; (eapply added_known_one; [exact Ad|apply X; cbn; auto 10|eassumption]).
Qed.
Lemma known_free w n m c name xs g gi : unnamed w (result_names name) -> known_results n xs g gi w m c name.
Proof.
  intros N. unfold unnamed, result_names in N. cbn [map] in N.
  assert (Kn : forall s i f, In s (map (append name) [" Christoffel"; " Riemann"; " Ricci Tensor"; " Ricci Scalar"; " Einstein"; " Weyl Tensor"])%string -> known w n m c s i f).
  { intros s i f Hs j Hj Hn. exfalso. exact (N s j Hs Hj Hn). }
  repeat split; apply Kn; cbn; auto 10.
Qed.
Lemma longer_name name s : In s (result_names name) -> s <> name.
Proof.
  intros H E. subst s. apply in_map_iff in H as (x & E & Hx).
  assert (L : String.length (name ++ x) = String.length name + String.length x).
  { clear. induction name as [|a name IH]; [reflexivity|]. cbn. rewrite IH. reflexivity. }
  rewrite E in L. assert (Z : String.length x = 0) by lia. cbn in Hx. repeat (destruct Hx as [<-|Hx]; [discriminate Z|]). destruct Hx.
Qed.

(** An object with a name other than "TEMP", and references other than temporary tensors. *)
Lemma added_temps w w' t o : added w w' t -> integrity w -> obj_of w' t = Some o -> o_name o <> "TEMP"%string ->
  (forall j, refers o j -> j = t \/ ~ named w "TEMP" j) -> temps_unused w -> temps_unused w'.
Proof.
  intros Ad I Ho Nm Hr T j Hj Hn (i & oi & Hi & Nij & Hoi & Hri).
  assert (Njt : j <> t). { intros ->. destruct Hn as (o' & Ho' & E). congruence. }
  apply (added_in _ _ _ _ Ad) in Hj as [Hj|Hj]; [|contradiction]. apply (added_named _ _ _ _ _ Ad Njt) in Hn.
  destruct (Nat.eq_dec i t) as [->|Nit].
  - rewrite Ho in Hoi. injection Hoi as <-. destruct (Hr j Hri) as [E|E]; contradiction.
  - apply (added_in _ _ _ _ Ad) in Hi as [Hi|Hi]; [|contradiction]. apply (T j Hj Hn). exists i, oi. split; [exact Hi|]. split; [exact Nij|]. split; [|exact Hri].
    destruct Ad as (_ & _ & A3). destruct (A3 i Nit) as [E _]. congruence.
Qed.

(** *** Coordinates *)
Lemma new_coordinates_start w name n xs symbol : in_order w -> 1 <= n -> length xs = n -> name <> "TEMP"%string -> (exists s, symbol = VStr s \/ symbol = VSymbol s) ->
  exists c w', new_coordinates (VStr name) (VSyms [n] xs) (VTuple [1]%Z) symbol [] w = (Ok c, w') /\ added w w' c /\ named w' name c /\
    in_order w' /\ chart w' n c xs /\ still_usable [name] w w'.
Proof.
  intros (O1 & O2 & O3) Hn Hl Nm Hs.
  destruct (proj2 (new_coordinates_valid w (VStr name) (VSyms [n] xs) (VTuple [1]%Z) symbol [])) as (c & w' & E).
  { exists (mkArr [n] (map ksym xs)). split; [right; eauto|]. split; [reflexivity|]. split; [eauto|]. split; [exact Hs|]. right. split; [reflexivity|intros ? ? []]. }
  exists c, w'. split; [exact E|]. destruct (new_coordinates_object _ _ _ _ _ _ _ _ E) as (o & a & Ha & Ho & Hc & Hnew & Hins & Hoth & No & _ & _ & Co & To & _ & _ & So).
  injection No as No. assert (Ad : added w w' c) by (split; [exact Hnew|split; assumption]). split; [exact Ad|]. split; [exists o; auto|].
  assert (I' : integrity w').
  { assert (H := run_op_integrity w (OpCoordinates (VStr name) (VSyms [n] xs) (VTuple [1]%Z) symbol []) O2 ltac:(constructor)).
    cbn [run_op] in H. unfold mbind in H. rewrite E in H. exact H. }
  assert (T' : typed w').
  { destruct (new_coordinates_spec (VStr name) (VSyms [n] xs) (VTuple [1]%Z) symbol [] w) as [[e E']|(a' & _ & _ & E')]; [congruence|].
    rewrite E' in E. injection E as _ <-. apply typed_fresh; [exact O1|discriminate|discriminate]. }
  assert (U' : temps_unused w').
  { apply (added_temps _ _ _ _ Ad O2 Ho); [congruence| |exact O3]. intros j [H|[H|[H|H]]].
    - rewrite Co in H. destruct H as [<-|[]]. auto.
    - destruct (T' c o Ho) as [X _]. 
      destruct (new_coordinates_spec (VStr name) (VSyms [n] xs) (VTuple [1]%Z) symbol [] w) as [[e E']|(a' & _ & _ & E')]; [congruence|].
      rewrite E' in E. injection E as <- <-. rewrite obj_of_fresh, Nat.eqb_refl in Ho. injection Ho as <-. discriminate H.
    - destruct (new_coordinates_spec (VStr name) (VSyms [n] xs) (VTuple [1]%Z) symbol [] w) as [[e E']|(a' & _ & _ & E')]; [congruence|].
      rewrite E' in E. injection E as <- <-. rewrite obj_of_fresh, Nat.eqb_refl in Ho. injection Ho as <-. discriminate H.
    - rewrite To in H. destruct H. }
  assert (O' : in_order w') by (split; [|split]; assumption). split; [exact O'|]. split.
  - split; [exact Hn|]. split; [split; [exact Hc|]|].
    { exists o, [([1]%Z, a)], a. split; [exact Ho|]. rewrite Co. cbn [dget]. rewrite Nat.eqb_refl. split; [reflexivity|]. split; [reflexivity|].
      cbn in Ha. injection Ha as <-. cbn. rewrite map_length. exact Hl. }
    split; [apply (added_in _ _ _ _ Ad); auto|]. split; [intros (o' & Ho' & E'); congruence|]. exists o. split; [exact Ho|]. split; [apply (So [n]); reflexivity|exact Hl].
  - split; [intros; eapply added_chart; eassumption|]. split; [intros; eapply added_session; eassumption|].
    intros n2 m2 c2 name2 xs2 g2 gi2 N K. eapply added_known; [exact Ad| |exact K]. intros s (o' & Ho' & <-).
    assert (o' = o) by congruence. subst o'. rewrite No. apply N. left. reflexivity.
Qed.

(** *** Metrics *)
Context {L : AlgLaws A} {IL : InvLaws A} {DL : DetLaws A}.
Add Ring Kring : kring (setoid keq_equiv kring_ext).
Lemma new_metric_start w name n c xs comps a symbol : in_order w -> chart w n c xs -> name <> "TEMP"%string -> (exists s, symbol = VStr s \/ symbol = VSymbol s) ->
  array_like comps a -> awf a -> shape a = [n; n] -> mdet0 n (data a) = false ->
  (forall i j, i < n -> j < n -> kisz (simp (ksub (aget a [i; j]) (aget a [j; i]))) = true) ->
  exists m w' gi, new_metric (VStr name) comps (VObj c) (VTuple [-1; -1]%Z) symbol w = (Ok m, w') /\ added w w' m /\
    metric_session w' n m c name xs (fun i j => aget a [i; j]) gi /\
    (unnamed w (result_names name) -> known_results n xs (fun i j => aget a [i; j]) gi w' m c name) /\
    still_usable [name] w w'.
Proof.
  intros (O1 & O2 & O3) Hch Nm Hs Hal Hwf Hsh Hdet Hsym.
  assert (Hwf' : forall b, array_like comps b -> awf b).
  { intros b Hb. destruct Hal as [->|[->|(sh & l & -> & ->)]]; destruct Hb as [E|[E|(sh' & l' & E & ->)]]; try discriminate E; injection E as <-; try exact Hwf.
    subst. exact Hwf. }
  destruct (proj2 (new_metric_valid w (VStr name) comps (VObj c) (VTuple [-1; -1]%Z) symbol Hwf')) as (m & w' & E).
  { destruct Hch as (_ & Hc & _). exists c, n, a. repeat (split; [eauto; fail|]). eauto 10. }
  exists m, w'. destruct (new_metric_object _ _ _ _ _ _ _ _ E) as (c' & o & n' & a' & gi & l & [= <-] & [= <-] & Hal' & Hsh' & Hgi & Ho & Hc & Hnew & Hins & Hoth & No & _ & Ro & Io & Co & Mo & Po).
  assert (a' = a).
  { destruct Hal as [->|[->|(sh & l' & -> & ->)]]; destruct Hal' as [E'|[E'|(sh' & l2 & E' & ->)]]; try discriminate E'; injection E' as <-; subst; reflexivity. }
  subst a'. assert (n' = n) by congruence. subst n'. injection No as No.
  assert (Ad : added w w' m) by (split; [exact Hnew|split; assumption]).
  assert (I' : integrity w').
  { assert (H := run_op_integrity w (OpMetric (VStr name) comps (VObj c) (VTuple [-1; -1]%Z) symbol) O2 ltac:(apply Hch)).
    cbn [run_op] in H. unfold mbind in H. rewrite E in H. exact H. }
  assert (Hcc : cls_of w c = Some CCoordinates) by apply Hch.
  assert (T' : typed w').
  { intros j oj Hj. destruct (Nat.eq_dec j m) as [->|N].
    - rewrite Ho in Hj. injection Hj as <-. rewrite Mo, Co. split; intros x [= <-]; [exact Hc|].
      destruct Hch as (_ & [_ (oc & d & x & Hoc & _)] & _). destruct (added_old _ _ _ _ _ Ad Hoc) as [_ ->]. exact Hcc.
    - destruct (Hoth j N) as [Ej _]. rewrite Ej in Hj. destruct (O1 j oj Hj) as [X1 X2].
      destruct (new_metric_cases (VStr name) comps (VObj c) (VTuple [-1; -1]%Z) symbol w) as [[e E']|(c' & o' & w2 & r & _ & _ & E' & Hw2 & _)]; [congruence|].
      assert (Ew : w' = fresh_world w CMetric o') by congruence. rewrite Ew. split; intros x Hx; apply cls_fresh_old; auto. }
  assert (U' : temps_unused w').
  { apply (added_temps _ _ _ _ Ad O2 Ho); [congruence| |exact O3]. intros j [H|[H|[H|H]]].
    - rewrite Po in H. destruct H as [<-|[]]. right. apply Hch.
    - rewrite Mo in H. injection H as <-. auto.
    - rewrite Co in H. injection H as <-. right. apply Hch.
    - destruct (new_metric_cases (VStr name) comps (VObj c) (VTuple [-1; -1]%Z) symbol w) as [[e E']|(c' & o' & w2 & r & _ & _ & E' & Hw2 & _ & _ & _ & Ht & _)]; [congruence|].
      assert (Ew : w' = fresh_world w CMetric o') by congruence.
      destruct (Nat.eq_dec m (length (heap w))) as [->|N].
      + rewrite Ew, obj_of_fresh, Nat.eqb_refl in Ho. injection Ho as <-. rewrite Ht in H. destruct H.
      + exfalso. rewrite Ew, obj_of_fresh in Ho. destruct (Nat.eqb_spec m (length (heap w))); [contradiction|]. congruence. }
  assert (O' : in_order w') by (split; [|split]; assumption).
  destruct (ainv_spec n a gi (conj Hwf Hsh) Hgi) as [[Wgi Sgi] Inv].
  assert (Sq : forall b, square n b -> cubic n b /\ rank b = 2).
  { intros b [W S]. assert (R : rank b = 2) by (unfold rank; rewrite S; reflexivity). split; [|exact R]. split; [exact W|]. rewrite R. exact S. }
  exists (fun i j => aget gi [i; j]). split; [exact E|]. split; [exact Ad|]. split.
  - destruct (added_chart _ _ _ _ _ _ Ad Hch) as (C1 & C2 & C3 & C4 & C5).
    repeat (split; [assumption|]). split; [apply (added_in _ _ _ _ Ad); auto|]. split; [intros (o' & Ho' & E'); congruence|].
    split.
    { intros i j Hi Hj. assert (H := Hsym i j Hi Hj). apply kisz_ok in H. rewrite simp_ok in H. 
      transitivity (kadd (ksub (aget a [i; j]) (aget a [j; i])) (aget a [j; i])); [ring|]. rewrite H. ring. }
    split; [exact Inv|].
    exists o, (fun z0 z1 => match z0, z1 with (-1)%Z, (-1)%Z => a | 1%Z, 1%Z => gi | _, _ => eye n end).
    split; [exact Ho|]. split; [exact No|]. split; [exact Mo|]. split; [exact Io|]. split; [exact Ro|]. split.
    + split; [exact Co|]. split; [rewrite Io; reflexivity|]. rewrite Po. cbn [dget]. rewrite Nat.eqb_refl. eexists. split; [reflexivity|].
      intros z0 z1 V. inversion V as [|? ? V0 V']; subst. inversion V' as [|? ? V1 _]; subst.
      assert (Sqa := Sq a (conj Hwf Hsh)). assert (Sqi := Sq gi (conj Wgi Sgi)). assert (Sqe := Sq (eye n) (square_eye n)).
      destruct V0 as [-> | ->], V1 as [-> | ->]; (split; [reflexivity|assumption]).
    + intros i j Hi Hj. cbn beta iota. rewrite aget_eye by assumption. repeat split; reflexivity.
  - split.
    + intros Hfree. apply known_free. intros s j Hx Hj Hn. destruct (Nat.eq_dec j m) as [->|N].
      * destruct Hn as (o' & Ho' & <-). assert (o' = o) by congruence. subst o'. rewrite No in Hx. exact (longer_name _ _ Hx eq_refl).
      * apply (added_in _ _ _ _ Ad) in Hj as [Hj|Hj]; [|contradiction]. apply (added_named _ _ _ _ _ Ad N) in Hn. exact (Hfree s j Hx Hj Hn).
    + split; [intros; eapply added_chart; eassumption|]. split; [intros; eapply added_session; eassumption|].
      intros n2 m2 c2 name2 xs2 g2 gi2 N K. eapply added_known; [exact Ad| |exact K]. intros s (o' & Ho' & <-).
      assert (o' = o) by congruence. subst o'. rewrite No. apply N. left. reflexivity.
Qed.
End Start.
