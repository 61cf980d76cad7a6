(** Requests and changes of defaults keep the stored components right. *)
From Verif Require Import Alg Alg_P Arr Arr_P Spec UtilsM Arr2_P Act_P TensorM RL_P Jac_P Tensor_P Jacobian_P WorldM SpecWorld World_P Registry_P Geo_P.
Local Open Scope nat_scope.

Section History.
Context {A : AlgOps} {L : AlgLaws A} {DL : DiffLaws A} {SL : SubsLaws A} {IL : InvLaws A}.
Variable g : geometry.
Hypothesis HC : consistent g.
Variables t m : oid.
Variable cl : oid -> option cls.
Hypothesis cl_t : forall k, cl t = Some k -> k = CTensor.
Hypothesis cl_m : cl m = Some CMetric.
Hypothesis cl_S : forall c, g_sys g c -> cl c = Some CCoordinates.
Notation n := (g_n g).
Notation S := (g_sys g).
Notation fG := (fun c => mat_comps (g_G g c)).
Notation compsT := (list (oid * list (list Z * arr))).

Definition OK (X : oid -> compsT -> Prop) (i : oid) (o : obj) : Prop :=
  (forall m', o_metric o = Some m' -> cl m' = Some CMetric) /\
  (forall c, o_coords o = Some c -> cl c = Some CCoordinates) /\
  (i = t -> tensor_ok g m o) /\ (i = m -> metric_ok g o) /\ (S i -> system_ok g i o) /\ X i (o_comps o).

Definition anyX : oid -> compsT -> Prop := fun _ _ => True.

Definition Inv (X : oid -> compsT -> Prop) (w : world) : Prop :=
  (forall i, cls_of w i = cl i) /\
  (forall i o, obj_of w i = Some o -> OK X i o) /\
  (forall i, (i = t /\ cl t <> None) \/ i = m \/ S i -> exists o, obj_of w i = Some o).

Lemma OK_X (X Y : oid -> compsT -> Prop) i o : OK X i o -> Y i (o_comps o) -> OK Y i o.
Proof. intros (a & b & c & d & e & _) H. exact (conj a (conj b (conj c (conj d (conj e H))))). Qed.

Lemma Inv_any X w : Inv X w -> Inv anyX w.
Proof.
  intros (H1 & H2 & H3). split; [exact H1|]. split; [|exact H3].
  intros i o Ho. apply (OK_X X); [apply H2, Ho|constructor].
Qed.

Lemma b_get {Y} X x (k : obj -> M Y) Q :
  (forall o, OK X x o -> hoare (fun w => Inv X w /\ obj_of w x = Some o) (k o) Q (Inv anyX)) ->
  hoare (Inv X) (mbind (getobj x) k) Q (Inv anyX).
Proof.
  intros H w Hw. unfold mbind, getobj. destruct (obj_of w x) as [o|] eqn:Ho; [|apply (Inv_any X), Hw].
  apply (H o); [|auto]. apply Hw, Ho.
Qed.

Lemma h_weak {Y} (P P' : world -> Prop) (k : M Y) Q E : (forall w, P w -> P' w) -> hoare P' k Q E -> hoare P k Q E.
Proof. intros H H1 w Hw. apply H1, H, Hw. Qed.

(** get an object and forget that it is the present one *)
Lemma b_get' {Y} X x (k : obj -> M Y) Q :
  (forall o, OK X x o -> hoare (Inv X) (k o) Q (Inv anyX)) ->
  hoare (Inv X) (mbind (getobj x) k) Q (Inv anyX).
Proof. intros H. apply b_get. intros o Ho. eapply h_weak; [|apply H, Ho]. intros w Hw. apply Hw. Qed.

Lemma b_opt {Y Z} (P : world -> Prop) e (x : option Y) (k : Y -> M Z) Q (E : world -> Prop) :
  (forall w, P w -> E w) -> (forall y, x = Some y -> hoare P (k y) Q E) -> hoare P (mbind (mopt e x) k) Q E.
Proof. intros H1 H2 w Hw. unfold mbind. destruct x as [y|]; cbn; [apply H2; auto|apply H1, Hw]. Qed.

Lemma b_lift {Y Z} (P : world -> Prop) (x : res Y) (k : Y -> M Z) Q (E : world -> Prop) :
  (forall w, P w -> E w) -> (forall y, x = Ok y -> hoare P (k y) Q E) -> hoare P (mbind (mlift x) k) Q E.
Proof. intros H1 H2 w Hw. unfold mbind, mlift. destruct x as [y|]; cbn; [apply H2; auto|apply H1, Hw]. Qed.

Lemma b_pure {Y Z} (P P' : world -> Prop) (mm : M Y) (phi : Y -> Prop) (k : Y -> M Z) Q E :
  hoare P mm (fun a w => P' w /\ phi a) E -> (forall a, phi a -> hoare P' (k a) Q E) -> hoare P (mbind mm k) Q E.
Proof.
  intros H1 H2. eapply h_bind; [exact H1|]. intros a w [Hw Ha]. exact (H2 a Ha w Hw).
Qed.

Lemma put_Inv (X Y : oid -> compsT -> Prop) x o' : (OK Y x o') -> (forall i cs, i <> x -> X i cs -> Y i cs) ->
  hoare (fun w => Inv X w /\ exists o, obj_of w x = Some o) (put x o') (fun _ => Inv Y) (Inv anyX).
Proof.
  intros Ho HXY w [(H1 & H2 & H3) (o & Hx)]. destruct (put_spec w x o o' Hx) as (w' & E & _ & _ & Hc & Hj). rewrite E.
  split; [intros i; rewrite Hc; apply H1|]. split.
  - intros i oi. rewrite Hj. destruct (Nat.eqb_spec x i) as [<-|N].
    + intros Hi. injection Hi as <-. exact Ho.
    + intros Hi. apply (OK_X X); [apply H2, Hi|]. apply HXY; [congruence|]. apply H2 in Hi. apply Hi.
  - intros i Hi. rewrite Hj. destruct (x =? i); [eauto|]. apply H3, Hi.
Qed.

Lemma t_not_m : t <> m.
Proof. intros E. specialize (cl_t CMetric). rewrite E in cl_t. discriminate (cl_t cl_m). Qed.
Lemma S_not_t c : S c -> c <> t.
Proof. intros H E. specialize (cl_t CCoordinates). rewrite <- E in cl_t. discriminate (cl_t (cl_S c H)). Qed.
Lemma S_not_m c : S c -> c <> m.
Proof. intros H E. rewrite <- E, (cl_S c H) in cl_m. discriminate. Qed.

(** Jacobians *)
Lemma calc_jac_Inv X self coords : hoare (Inv X) (w_calculate_jacobian self coords) (fun _ => Inv X) (Inv anyX).
Proof.
  unfold w_calculate_jacobian. apply b_get. intros so Hso.
  intros w [Hw Hs]. unfold mbind at 1, getobj. destruct (obj_of w coords) as [co|] eqn:Hco; [|apply (Inv_any X), Hw].
  assert (Hc : OK X coords co) by (apply Hw, Hco).
  revert w Hw Hs Hco. intros w Hw Hs Hco.
  unfold mbind at 1. destruct (dget Nat.eqb coords (o_trans so)) as [R|] eqn:ER; cbn; [|apply (Inv_any X), Hw].
  unfold mbind, mlift. destruct (calculate_jacobian (o_syms so) (o_syms co) R) as [j|e] eqn:Ej; [|apply (Inv_any X), Hw].
  apply (put_Inv X X self); [|auto|split; [exact Hw|eauto]].
  destruct Hso as (a & b & c & d & e & f). split; [exact a|]. split; [exact b|]. split; [exact c|]. split; [exact d|]. split; [|exact f].
  intros HS. destruct (e HS) as (E1 & E2 & E3). split; [exact E1|]. split; [exact E2|]. cbn [o_jacs set_jacs].
  intros c' j'. destruct (Nat.eq_dec c' coords) as [->|N].
  - rewrite dget_dset_same. intros H; injection H as <-. rewrite E2 in ER. exists R. split; [exact ER|].
    destruct HC as (_ & _ & H2). destruct (H2 self coords R HS ER) as (HSc & _). destruct Hc as (_ & _ & _ & _ & Hc & _).
    destruct (Hc HSc) as (E4 & _). rewrite <- E1, <- E4. exact Ej.
  - rewrite dget_dset_other by exact N. apply E3.
Qed.

Lemma check_jac_Inv X self coords : hoare (Inv X) (w_check_jacobians self coords) (fun _ => Inv X) (Inv anyX).
Proof.
  unfold w_check_jacobians. apply b_get'. intros so _.
  destruct (dmem Nat.eqb coords (o_jacs so)); [apply h_ret; auto|].
  destruct (dmem Nat.eqb coords (o_trans so)); [apply calc_jac_Inv|].
  apply b_get'. intros o _. apply h_raise. intros w. apply Inv_any.
Qed.

(** Components *)
Definition LK (x c : oid) (i : list Z) (a : arr) : Prop :=
  (x = t -> S c /\ valid_cfg i /\ length i = g_r g /\ holds n (g_r g) a (with_indices g c i (g_T g c))) /\
  (x = m -> S c /\ valid_cfg i /\ length i = 2 /\ holds n 2 a (with_indices g c i (fG c))).

Lemma OK_LK X x o c d i a : OK X x o -> dget Nat.eqb c (o_comps o) = Some d -> dget cfg_eqb i d = Some a -> LK x c i a.
Proof.
  intros (_ & _ & H1 & H2 & _) Hd Ha. split; intros E.
  - destruct (H1 E) as (_ & _ & _ & _ & _ & H). exact (H c d i a Hd Ha).
  - destruct (H2 E) as (_ & _ & _ & H). exact (H c d i a Hd Ha).
Qed.

Lemma lookup_Inv X x c i : hoare (Inv X) (lookup x c i) (fun a w => Inv X w /\ LK x c i a) (Inv anyX).
Proof.
  unfold lookup. apply b_get'. intros o Ho. apply b_opt; [intros w; apply Inv_any|]. intros d Hd.
  apply h_opt; [|intros w; apply Inv_any]. intros w a Ha Hw. split; [exact Hw|]. exact (OK_LK X x o c d i a Ho Hd Ha).
Qed.

(** Replacing the stored components. *)
Lemma OK_comps (X Y : oid -> compsT -> Prop) x o cs : OK X x o -> Y x cs ->
  (x = t -> stored_ok g (g_r g) (g_T g) (set_comps cs o)) -> (x = m -> stored_ok g 2 fG (set_comps cs o)) ->
  OK Y x (set_comps cs o).
Proof.
  intros (a & b & c & d & e & _) HY H1 H2. split; [exact a|]. split; [exact b|]. split; [|split; [|split; [exact e|exact HY]]].
  - intros E. destruct (c E) as (c1 & c2 & c3 & c4 & c5 & c6). exact (conj c1 (conj c2 (conj c3 (conj c4 (conj c5 (H1 E)))))).
  - intros E. destruct (d E) as (d1 & d2 & d3 & d4). exact (conj d1 (conj d2 (conj d3 (H2 E)))).
Qed.

Lemma stored_set r f o c i a : stored_ok g r f o ->
  S c -> valid_cfg i -> length i = r -> holds n r a (with_indices g c i (f c)) ->
  stored_ok g r f (set_comps (dset Nat.eqb c (dset cfg_eqb i a (match dget Nat.eqb c (o_comps o) with Some d => d | None => [] end)) (o_comps o)) o).
Proof.
  intros Ho Hc Hv Hl Ha c' d i' a'. cbn [o_comps set_comps]. destruct (Nat.eq_dec c' c) as [->|N].
  - rewrite dget_dset_same. intros H; injection H as <-. intros H.
    destruct (list_eq_dec Z.eq_dec i' i) as [->|N].
    + rewrite cget_set_same in H. injection H as <-. auto.
    + rewrite cget_set_other in H by exact N. destruct (dget Nat.eqb c (o_comps o)) as [d|] eqn:Ed; [|discriminate].
      exact (Ho c d i' a' Ed H).
  - rewrite dget_dset_other by exact N. apply Ho.
Qed.

Lemma store_Inv (X Y : oid -> compsT -> Prop) x c i a : LK x c i a -> (forall k cs, k <> x -> X k cs -> Y k cs) ->
  (forall cs, X x cs -> Y x (dset Nat.eqb c (dset cfg_eqb i a (match dget Nat.eqb c cs with Some d => d | None => [] end)) cs)) ->
  hoare (Inv X) (store x c i a) (fun _ => Inv Y) (Inv anyX).
Proof.
  intros [Ht Hm] HXY HX. unfold store. apply b_get. intros o Ho.
  eapply h_weak; [|apply (put_Inv X Y x)]; [intros w [Hw1 Hw2]; eauto| |exact HXY].
  apply (OK_comps X); [exact Ho|apply HX, Ho| |].
  - intros E. destruct (Ht E) as (a1 & a2 & a3 & a4). apply (stored_set (g_r g) (g_T g)); auto.
    destruct Ho as (_ & _ & Ho & _). apply (Ho E).
  - intros E. destruct (Hm E) as (a1 & a2 & a3 & a4). apply (stored_set 2 fG); auto.
    destruct Ho as (_ & _ & _ & Ho & _). apply (Ho E).
Qed.

Lemma store_any x c i a : LK x c i a -> hoare (Inv anyX) (store x c i a) (fun _ => Inv anyX) (Inv anyX).
Proof. intros H. apply store_Inv; [exact H|auto|constructor]. Qed.

(** The default coordinates of the tensor and of the metric are in the geometry. *)
Lemma OK_default X x o c : OK X x o -> x = t \/ x = m -> o_coords o = Some c -> S c.
Proof.
  intros (_ & _ & H1 & H2 & _) [E|E] Hc.
  - destruct (H1 E) as (_ & _ & _ & _ & (c' & Hc' & HS) & _). congruence.
  - destruct (H2 E) as (_ & _ & (c' & Hc' & HS) & _). congruence.
Qed.

Lemma b_need {Y} X o c (k : M Y) Q : hoare (Inv X) k Q (Inv anyX) -> hoare (Inv X) (need_array o c ;; k) Q (Inv anyX).
Proof.
  intros H. unfold need_array. destruct (is_expr o c); [|exact H].
  intros w Hw. apply (Inv_any X), Hw.
Qed.

(** BaseTensor._transform_coordinates *)
Lemma base_transform_Inv (X Y : oid -> compsT -> Prop) x coords i :
  (forall k cs, k <> x -> X k cs -> Y k cs) ->
  (forall a cs, LK x coords i a -> X x cs -> Y x (dset Nat.eqb coords (dset cfg_eqb i a (match dget Nat.eqb coords cs with Some d => d | None => [] end)) cs)) ->
  hoare (Inv X) (base_transform x coords i) (fun _ => Inv Y) (Inv anyX).
Proof.
  intros HXY HX. unfold base_transform. apply b_get'. intros o Ho. apply b_opt; [intros w; apply Inv_any|]. intros c Hc.
  eapply h_bind; [apply check_jac_Inv|]. intro_. eapply b_pure; [apply lookup_Inv|]. intros a Ha.
  apply b_get'. intros co Hco. apply b_opt; [intros w; apply Inv_any|]. intros [[J Ji] C] HJ.
  apply b_opt; [intros w; apply Inv_any|]. intros R HR. apply b_need. apply b_lift; [intros w; apply Inv_any|]. intros b Eb.
  assert (Hb : LK x coords i b).
  { pose proof Ho as (_ & _ & Ot & Om & _). pose proof Hco as (_ & _ & _ & _ & Cs & _). destruct Ha as [Ht Hm]. split; intros E.
    - destruct (Ht E) as (a1 & a2 & a3 & a4). destruct (Cs a1) as (E1 & E2 & E3).
      destruct (E3 coords _ HJ) as (R' & ER & EJ). rewrite E2 in HR. assert (R' = R) by congruence. subst R'.
      destruct HC as (_ & _ & H2). destruct (H2 c coords R a1 HR) as (HS & _ & LawT & _).
      destruct (Ot E) as (_ & Or & _). rewrite Or in Eb.
      destruct (transform_holds g HC (g_r g) (g_T g c) (g_T g coords) c coords R J Ji C i a a1 HR EJ LawT a2 a3 a4) as (b' & Eb' & Hb').
      assert (b' = b) by congruence. subst b'. auto.
    - destruct (Hm E) as (a1 & a2 & a3 & a4). destruct (Cs a1) as (E1 & E2 & E3).
      destruct (E3 coords _ HJ) as (R' & ER & EJ). rewrite E2 in HR. assert (R' = R) by congruence. subst R'.
      destruct HC as (_ & _ & H2). destruct (H2 c coords R a1 HR) as (HS & _ & _ & LawG).
      destruct (Om E) as (Or & _). rewrite Or in Eb.
      destruct (transform_holds g HC 2 (fG c) (fG coords) c coords R J Ji C i a a1 HR EJ LawG a2 a3 a4) as (b' & Eb' & Hb').
      assert (b' = b) by congruence. subst b'. auto. }
  apply store_Inv; auto.
Qed.

Lemma base_transform_any x coords i : hoare (Inv anyX) (base_transform x coords i) (fun _ => Inv anyX) (Inv anyX).
Proof. apply base_transform_Inv; [auto|constructor]. Qed.

(** Metric._transform_coordinates on coordinates that are not stored yet *)
Definition noneX (x coords : oid) : oid -> compsT -> Prop := fun i cs => i = x -> dget Nat.eqb coords cs = None.
Definition oneX (x coords : oid) (i : list Z) : oid -> compsT -> Prop :=
  fun j cs => j = x -> exists a, dget Nat.eqb coords cs = Some [(i, a)].

Lemma metric_transform_Inv x coords i : x <> t ->
  hoare (Inv (noneX x coords)) (metric_transform x coords i) (fun _ => Inv anyX) (Inv anyX).
Proof.
  intros Nt. unfold metric_transform.
  eapply h_bind; [apply (base_transform_Inv _ (oneX x coords i))|].
  { intros k cs Hk _ E. contradiction. }
  { intros a cs Ha Hx _. rewrite (Hx eq_refl). exists a. apply dget_dset_same. }
  intro_. apply b_get. intros o Ho. apply b_opt; [intros w [Hw _]; apply (Inv_any _ _ Hw)|]. intros d Hd.
  destruct (metric_fill (o_indices o) i d) as [d' r] eqn:Ef.
  eapply h_bind.
  - eapply h_weak; [|apply (put_Inv (oneX x coords i) anyX x)]; [intros w [Hw1 Hw2]; eauto| |constructor].
    apply (OK_comps (oneX x coords i)); [exact Ho|constructor|intros E; contradiction|].
    intros E. pose proof Ho as (_ & _ & _ & Hm & _ & Hx). destruct (Hx eq_refl) as (a & Ha). pose proof (eq_trans (eq_sym Ha) Hd) as Hd2. injection Hd2 as <-.
    destruct (Hm E) as (_ & Hi & _ & Hst).
    assert (Hg : dget cfg_eqb i [(i, a)] = Some a) by (cbn; rewrite cfg_eqb_refl; reflexivity).
    destruct (Hst coords _ i a Ha Hg) as (HS & Vi & Li & Hh).
    pose proof (metric_fill_holds g HC coords (o_indices o) i a d' r HS Hi Vi Li Hh Ef) as Hd'.
    intros c' d0 i' a'. cbn [o_comps set_comps]. destruct (Nat.eq_dec c' coords) as [->|N].
    + rewrite dget_dset_same. intros H; injection H as <-. intros H. split; [exact HS|]. apply Hd', H.
    + rewrite dget_dset_other by exact N. apply Hst.
  - intro_. apply h_lift; auto.
Qed.

Lemma dmem_false_none (k : oid) {V} (d : list (oid * V)) : dmem Nat.eqb k d = false -> dget Nat.eqb k d = None.
Proof. unfold dmem. destruct (dget Nat.eqb k d); [discriminate|reflexivity]. Qed.

(** The check of a metric, and a metric transformation after it. *)
Lemma metric_ensure x coords i : x <> t ->
  hoare (Inv anyX) (let! b := metric_check x coords in if b then mret tt else metric_transform x coords i)
    (fun _ => Inv anyX) (Inv anyX).
Proof.
  intros Nt w Hw. unfold metric_check, mbind at 1, mbind at 1, getobj. destruct (obj_of w x) as [o|] eqn:Ho; [|exact Hw].
  cbn. destruct (dmem Nat.eqb coords (o_comps o)) eqn:E; [exact Hw|].
  apply metric_transform_Inv; [exact Nt|]. destruct Hw as (H1 & H2 & H3). split; [exact H1|]. split; [|exact H3].
  intros j oj Hj. destruct (H2 j oj Hj) as (a & b & c & d & e & _).
  split; [exact a|]. split; [exact b|]. split; [exact c|]. split; [exact d|]. split; [exact e|].
  intros ->. assert (oj = o) by congruence. subst oj. apply dmem_false_none, E.
Qed.

Lemma bind_assoc {X Y Z} (mm : M X) (k : X -> M Y) (h : Y -> M Z) w :
  mbind (mbind mm k) h w = mbind mm (fun x => mbind (k x) h) w.
Proof. unfold mbind. destruct (mm w) as [[x|e] w']; reflexivity. Qed.

Lemma h_eq {X} P (m1 m2 : M X) Q E : (forall w, m1 w = m2 w) -> hoare P m2 Q E -> hoare P m1 Q E.
Proof. intros H H1 w Hw. rewrite H. apply H1, Hw. Qed.

Lemma ensure_bind {Y} x coords i (k : M Y) Q : x <> t ->
  hoare (Inv anyX) k Q (Inv anyX) ->
  hoare (Inv anyX) (let! b := metric_check x coords in (if b then mret tt else metric_transform x coords i) ;; k) Q (Inv anyX).
Proof.
  intros Nt Hk. eapply h_eq; [intros w; symmetry; apply (bind_assoc (metric_check x coords) (fun b : bool => if b then mret tt else metric_transform x coords i) (fun _ => k))|].
  eapply h_bind; [apply metric_ensure, Nt|]. intro_. exact Hk.
Qed.

(** Tensor._raise_lower *)
Lemma raise_lower_Inv x coords i : x <> m -> (x = t -> valid_cfg i /\ length i = g_r g) ->
  hoare (Inv anyX) (w_raise_lower x coords i) (fun _ => Inv anyX) (Inv anyX).
Proof.
  intros Nm Hi. unfold w_raise_lower. apply b_get'. intros o Ho. apply b_opt; [auto|]. intros mm Hmm.
  assert (Cm : cl mm = Some CMetric) by (destruct Ho as (Ho & _); apply Ho, Hmm).
  apply ensure_bind; [intros E; rewrite E in Cm; discriminate (cl_t _ Cm)|].
  apply b_get'. intros o' Ho'. apply b_opt; [auto|]. intros d Hd. apply b_opt; [auto|]. intros [src a] Hh.
  assert (Ha : LK x coords src a).
  { apply (OK_LK anyX x o' coords d src a Ho' Hd). destruct d as [|sa d]; [discriminate|]. injection Hh as ->. cbn. rewrite cfg_eqb_refl. reflexivity. }
  eapply b_pure; [apply lookup_Inv|]. intros gg Hg. eapply b_pure; [apply lookup_Inv|]. intros gi Hgi.
  apply b_lift; [auto|]. intros b Eb. apply store_any. split; intros E; [|contradiction].
  destruct Ho as (_ & _ & Ho & _). destruct (Ho E) as (E1 & _). assert (mm = m) by congruence. subst mm.
  destruct Ha as [Ha _]. destruct (Ha E) as (a1 & a2 & a3 & a4). destruct (Hi E) as [i1 i2].
  destruct Hg as [_ Hg]. destruct (Hg eq_refl) as (_ & _ & _ & Hg').
  destruct Hgi as [_ Hgi]. destruct (Hgi eq_refl) as (_ & _ & _ & Hgi').
  apply metric_holds in Hg' as [Sg Mg]; auto; try (repeat (apply Forall_cons; [auto|]); apply Forall_nil).
  apply metric_holds in Hgi' as [Sgi Mgi]; auto; try (repeat (apply Forall_cons; [auto|]); apply Forall_nil).
  destruct (raise_lower_holds g HC (g_r g) (g_T g coords) coords gg gi src i a a1 Sg Sgi Mg Mgi a2 a3 i1 i2 a4) as (b' & Eb' & Hb').
  assert (b' = b) by congruence. subst b'. auto.
Qed.

Lemma tensor_check_Inv x coords i : x <> m -> (x = t -> valid_cfg i /\ length i = g_r g) ->
  hoare (Inv anyX) (tensor_check x coords i) (fun _ => Inv anyX) (Inv anyX).
Proof.
  intros Nm Hi. unfold tensor_check. apply b_get'. intros o Ho.
  destruct (dget Nat.eqb coords (o_comps o)) as [d|]; [|apply h_ret; auto].
  destruct (dmem cfg_eqb i d); [apply h_ret; auto|].
  eapply h_bind; [apply raise_lower_Inv; auto|]. intro_. apply h_ret. auto.
Qed.

Lemma tensor_transform_Inv x coords i : x <> m -> (x = t -> valid_cfg i /\ length i = g_r g) ->
  hoare (Inv anyX) (tensor_transform x coords i) (fun _ => Inv anyX) (Inv anyX).
Proof.
  intros Nm Hi. unfold tensor_transform. apply b_get'. intros o Ho. apply b_opt; [auto|]. intros c Hc.
  eapply h_bind; [apply tensor_check_Inv; auto|]. intros b.
  eapply h_bind; [|intro_; apply base_transform_any].
  destruct b; [apply h_ret; auto|apply raise_lower_Inv; auto].
Qed.

Lemma christoffel_transform_Inv x coords i : x <> m -> x <> t ->
  hoare (Inv anyX) (w_christoffel_transform x coords i) (fun _ => Inv anyX) (Inv anyX).
Proof.
  intros Nm Nt. unfold w_christoffel_transform. apply b_get'. intros o Ho. apply b_opt; [auto|]. intros c Hc.
  eapply h_bind; [apply check_jac_Inv|]. intro_. eapply b_pure; [apply lookup_Inv|]. intros a Ha.
  apply b_get'. intros co Hco. apply b_opt; [auto|]. intros [[J Ji] C] HJ.
  apply b_opt; [auto|]. intros R HR. apply b_need. apply b_lift; [auto|]. intros b Eb.
  apply store_any. split; intros E; contradiction.
Qed.

Lemma curve_transform_Inv f x coords i : x <> m -> x <> t ->
  hoare (Inv anyX) (w_curve_transform f x coords i) (fun _ => Inv anyX) (Inv anyX).
Proof.
  intros Nm Nt. unfold w_curve_transform. apply b_get'. intros o Ho. apply b_opt; [auto|]. intros c Hc.
  eapply h_bind; [apply check_jac_Inv|]. intro_. eapply b_pure; [apply lookup_Inv|]. intros a Ha.
  apply b_get'. intros co Hco. apply b_opt; [auto|]. intros [[J Ji] C] HJ.
  apply b_opt; [auto|]. intros R HR. apply b_need. apply b_get'. intros no Hno. apply b_lift; [auto|]. intros b Eb.
  apply store_any. split; intros E; contradiction.
Qed.

Definition good_cfg (x : oid) (i : list Z) : Prop := x = t -> valid_cfg i /\ length i = g_r g.

(** The check and the transformation together. *)
Lemma check_bind {Y} x coords i (k : M Y) Q : good_cfg x i ->
  hoare (Inv anyX) k Q (Inv anyX) ->
  hoare (Inv anyX) (let! b := check_representation x coords i in (if b then mret tt else transform_coordinates x coords i) ;; k) Q (Inv anyX).
Proof.
  intros Hi Hk w Hw. assert (Ec := proj1 Hw x).
  assert (Cases : forall (ck : M bool) (tr : M unit),
    (forall w, cls_of w x = cl x -> check_representation x coords i w = ck w) ->
    (forall w, cls_of w x = cl x -> transform_coordinates x coords i w = tr w) ->
    (forall w, cls_of w x = cl x -> cls_of (snd (ck w)) x = cl x) ->
    hoare (Inv anyX) (let! b := ck in (if b then mret tt else tr) ;; k) Q (Inv anyX) ->
    match (let! b := check_representation x coords i in (if b then mret tt else transform_coordinates x coords i) ;; k) w with
    | (Ok y, w') => Q y w' | (Err _, w') => Inv anyX w' end).
  { intros ck tr E1 E2 E3 H. specialize (H w Hw). specialize (E3 w Ec). revert H. unfold mbind. rewrite (E1 w Ec).
    destruct (ck w) as [[b|e] w1] eqn:Ew; [|auto]. cbn in E3. destruct b; [auto|]. rewrite (E2 w1 E3). auto. }
  destruct (cl x) as [k0|] eqn:Ek.
  2:{ unfold mbind at 1, check_representation. rewrite Ec. exact Hw. }
  assert (T3 : forall c1, x <> m -> forall w0, cls_of w0 x = Some c1 -> cls_of w0 x = Some c1) by auto.
  destruct k0.
  - unfold mbind at 1, check_representation. rewrite Ec. exact Hw.
  - (* a metric *)
    apply (Cases (metric_check x coords) (metric_transform x coords i)).
    + intros w0 E0. unfold check_representation. rewrite E0. reflexivity.
    + intros w0 E0. unfold transform_coordinates. rewrite E0. reflexivity.
    + intros w0 E0. unfold metric_check, mbind, getobj. destruct (obj_of w0 x); exact E0.
    + apply ensure_bind; [|exact Hk]. intros ->. discriminate (cl_t _ Ek).
  - assert (Nm : x <> m) by (intros ->; congruence).
    specialize (tensor_check_Inv x coords i Nm Hi w Hw). unfold mbind at 1, check_representation. rewrite Ec.
    destruct (tensor_check x coords i w) as [[b|e] w1]; [|auto]. intros Hw1.
    revert w1 Hw1. change (hoare (Inv anyX) ((if b then mret tt else transform_coordinates x coords i) ;; k) Q (Inv anyX)).
    eapply h_bind; [|intro_; exact Hk]. destruct b; [apply h_ret; auto|].
    intros w1 Hw1. unfold transform_coordinates. rewrite (proj1 Hw1 x), Ek. apply tensor_transform_Inv; assumption.
  - assert (Nm : x <> m) by (intros ->; congruence). assert (Nt : x <> t) by (intros ->; discriminate (cl_t _ Ek)).
    specialize (tensor_check_Inv x coords i Nm Hi w Hw). unfold mbind at 1, check_representation. rewrite Ec.
    destruct (tensor_check x coords i w) as [[b|e] w1]; [|auto]. intros Hw1.
    revert w1 Hw1. change (hoare (Inv anyX) ((if b then mret tt else transform_coordinates x coords i) ;; k) Q (Inv anyX)).
    eapply h_bind; [|intro_; exact Hk]. destruct b; [apply h_ret; auto|].
    intros w1 Hw1. unfold transform_coordinates. rewrite (proj1 Hw1 x), Ek. apply christoffel_transform_Inv; assumption.
  - assert (Nm : x <> m) by (intros ->; congruence). assert (Nt : x <> t) by (intros ->; discriminate (cl_t _ Ek)).
    specialize (tensor_check_Inv x coords i Nm Hi w Hw). unfold mbind at 1, check_representation. rewrite Ec.
    destruct (tensor_check x coords i w) as [[b|e] w1]; [|auto]. intros Hw1.
    revert w1 Hw1. change (hoare (Inv anyX) ((if b then mret tt else transform_coordinates x coords i) ;; k) Q (Inv anyX)).
    eapply h_bind; [|intro_; exact Hk]. destruct b; [apply h_ret; auto|].
    intros w1 Hw1. unfold transform_coordinates. rewrite (proj1 Hw1 x), Ek. apply curve_transform_Inv; assumption.
  - assert (Nm : x <> m) by (intros ->; congruence). assert (Nt : x <> t) by (intros ->; discriminate (cl_t _ Ek)).
    specialize (tensor_check_Inv x coords i Nm Hi w Hw). unfold mbind at 1, check_representation. rewrite Ec.
    destruct (tensor_check x coords i w) as [[b|e] w1]; [|auto]. intros Hw1.
    revert w1 Hw1. change (hoare (Inv anyX) ((if b then mret tt else transform_coordinates x coords i) ;; k) Q (Inv anyX)).
    eapply h_bind; [|intro_; exact Hk]. destruct b; [apply h_ret; auto|].
    intros w1 Hw1. unfold transform_coordinates. rewrite (proj1 Hw1 x), Ek. apply curve_transform_Inv; assumption.
Qed.

Lemma check_Inv x coords i : good_cfg x i -> hoare (Inv anyX) (check_representation x coords i) (fun _ => Inv anyX) (Inv anyX).
Proof.
  intros Hi w Hw. unfold check_representation. rewrite (proj1 Hw x). destruct (cl x) as [[| | | | |]|] eqn:Ek; try exact Hw.
  - unfold metric_check, mbind, getobj. destruct (obj_of w x); exact Hw.
  - apply tensor_check_Inv; auto. intros ->. congruence.
  - apply tensor_check_Inv; auto. intros ->. congruence.
  - apply tensor_check_Inv; auto. intros ->. congruence.
  - apply tensor_check_Inv; auto. intros ->. congruence.
Qed.

Lemma validated X x o i u : OK X x o -> validate_indices (VTuple i) None (Some (length (o_indices o))) = Ok u -> good_cfg x i.
Proof.
  intros Ho Hv E. destruct (validate_indices_spec (VTuple i) None (Some (length (o_indices o)))) as (_ & H & _).
  destruct (H i eq_refl) as [[H1 _] _]. destruct u. destruct (H1 Hv) as (V & _ & Hl). split; [exact V|].
  destruct Ho as (_ & _ & Ho & _). destruct (Ho E) as (_ & _ & _ & E4 & _). rewrite (Hl _ eq_refl). exact E4.
Qed.

Lemma b_isinst {Y} x c (k : bool -> M Y) Q (E : world -> Prop) :
  (forall b, (b = true -> cl x = Some c) -> hoare (Inv anyX) (k b) Q E) -> hoare (Inv anyX) (mbind (isinstance x c) k) Q E.
Proof.
  intros H. intros w Hw. unfold mbind, isinstance. apply H; [|exact Hw]. rewrite (proj1 Hw x).
  destruct (cl x) as [k0|]; [|discriminate]. intros Hc. destruct c, k0; try discriminate Hc; reflexivity.
Qed.

Lemma get_representation_Inv x coords i :
  hoare (Inv anyX) (get_representation x coords i) (fun a w => Inv anyX w /\ LK x coords i a) (Inv anyX).
Proof.
  unfold get_representation. apply b_isinst. intros b Hb. destruct b; cbn [negb]; [|apply h_raise; auto].
  apply b_get'. intros o Ho. apply b_lift; [auto|]. intros u Hv.
  assert (Hi := validated anyX x o i u Ho Hv). apply check_bind; [exact Hi|]. apply lookup_Inv.
Qed.

Lemma get_components_Inv x coords i :
  hoare (Inv anyX) (get_components x coords i) (fun _ => Inv anyX) (Inv anyX).
Proof.
  unfold get_components. apply b_get'. intros o Ho.
  assert (G : forall c i', hoare (Inv anyX) (get_representation x c i') (fun _ => Inv anyX) (Inv anyX)).
  { intros c i'. eapply h_conseq; [intros w Hw; exact Hw| |apply get_representation_Inv]. intros a w [Hw _]. exact Hw. }
  destruct coords as [c|]; cbn.
  - apply (G c).
  - apply b_opt; [auto|]. intros c Hc. apply G.
Qed.

Lemma change_indices_Inv x i : (x = m -> i = [-1; -1]%Z \/ i = [1; 1]%Z) ->
  hoare (Inv anyX) (change_default_indices x i) (fun _ => Inv anyX) (Inv anyX).
Proof.
  intros Hm. unfold change_default_indices. apply b_get'. intros o Ho. apply b_lift; [auto|]. intros u Hv.
  assert (Hi := validated anyX x o i u Ho Hv). apply b_opt; [auto|]. intros c Hc.
  eapply h_bind; [apply check_Inv, Hi|]. intros b. destruct b; [|apply h_ret; auto].
  apply b_get. intros o' Ho'. eapply h_weak; [|apply (put_Inv anyX anyX)]; [intros w [H1 H2]; eauto| |auto].
  destruct Ho' as (a1 & a2 & a3 & a4 & a5 & a6). split; [exact a1|]. split; [exact a2|]. split; [|split; [|split; [exact a5|exact I]]].
  - intros E. destruct (a3 E) as (b1 & b2 & b3 & b4 & b5 & b6). destruct (Hi E) as [i1 i2].
    split; [exact b1|]. split; [exact b2|]. split; [exact i1|]. split; [exact i2|]. split; [exact b5|exact b6].
  - intros E. destruct (a4 E) as (b1 & b2 & b3 & b4). split; [exact b1|]. split; [exact (Hm E)|]. split; [exact b3|exact b4].
Qed.

Lemma change_coords_Inv x coords :
  hoare (Inv anyX) (change_default_coords x coords) (fun _ => Inv anyX) (Inv anyX).
Proof.
  unfold change_default_coords. apply b_isinst. intros b Hb. destruct b; cbn [negb]; [|apply h_raise; auto].
  apply b_get'. intros o Ho. apply b_opt; [auto|]. intros c Hc.
  destruct (c =? coords); [apply h_ret; auto|].
  apply b_get'. intros co Hco. destruct (dmem Nat.eqb coords (o_trans co)) eqn:Ed; cbn [negb].
  2:{ apply b_get'. intros oc _. apply h_raise; auto. }
  assert (HS : x = t \/ x = m -> S coords).
  { intros E. pose proof (OK_default anyX x o c Ho E Hc) as HSc. destruct Hco as (_ & _ & _ & _ & H & _).
    destruct (H HSc) as (_ & E2 & _). rewrite E2 in Ed. unfold dmem in Ed. destruct (dget Nat.eqb coords (g_rules g c)) as [R|] eqn:ER; [|discriminate].
    destruct HC as (_ & _ & H2). apply (H2 c coords R HSc ER). }
  apply check_bind.
  { intros E. destruct Ho as (_ & _ & Ho & _). destruct (Ho E) as (_ & _ & V & Hl & _). auto. }
  apply b_get. intros o' Ho'. eapply h_weak; [|apply (put_Inv anyX anyX)]; [intros w [H1 H2]; eauto| |auto].
  destruct Ho' as (a1 & a2 & a3 & a4 & a5 & a6). split; [exact a1|]. split; [|split; [|split; [|split; [exact a5|exact I]]]].
  - intros c0 H. injection H as <-. apply Hb. reflexivity.
  - intros E. destruct (a3 E) as (b1 & b2 & b3 & b4 & b5 & b6).
    split; [exact b1|]. split; [exact b2|]. split; [exact b3|]. split; [exact b4|]. split; [|exact b6].
    exists coords. split; [reflexivity|]. apply HS. auto.
  - intros E. destruct (a4 E) as (b1 & b2 & b3 & b4). split; [exact b1|]. split; [exact b2|]. split; [|exact b4].
    exists coords. split; [reflexivity|]. apply HS. auto.
Qed.

Lemma change_name_Inv x v : hoare (Inv anyX) (change_name x v) (fun _ => Inv anyX) (Inv anyX).
Proof.
  unfold change_name. destruct v; try (apply h_raise; auto).
  apply b_get. intros o Ho. eapply h_weak; [|apply (put_Inv anyX anyX)]; [intros w [H1 H2]; eauto|exact Ho|auto].
Qed.

Lemma change_symbol_Inv x v : hoare (Inv anyX) (change_symbol x v) (fun _ => Inv anyX) (Inv anyX).
Proof.
  unfold change_symbol. destruct v; try (apply h_raise; auto);
  (apply b_get; intros o Ho; eapply h_weak; [|apply (put_Inv anyX anyX)]; [intros w [H1 H2]; eauto|exact Ho|auto]).
Qed.

Lemma dget_simplified c (d : compsd) :
  dget Nat.eqb c (map (fun cd => (fst cd, simplify_reps (snd cd))) d) = option_map simplify_reps (dget Nat.eqb c d).
Proof. induction d as [|[c' r] d IH]; [reflexivity|]. cbn. destruct (c =? c'); [reflexivity|exact IH]. Qed.
Lemma dget_simplified_reps i (d : reps) : dget cfg_eqb i (simplify_reps d) = option_map (amap simp) (dget cfg_eqb i d).
Proof. induction d as [|[i' a] d IH]; [reflexivity|]. cbn. destruct (cfg_eqb i i'); [reflexivity|exact IH]. Qed.

Lemma stored_simplified r f o : stored_ok g r f o ->
  stored_ok g r f (set_comps (map (fun cd => (fst cd, simplify_reps (snd cd))) (o_comps o)) o).
Proof.
  intros H c d i a H1 H2. cbn [set_comps o_comps] in H1. rewrite dget_simplified in H1.
  destruct (dget Nat.eqb c (o_comps o)) as [d0|] eqn:Ed; [|discriminate H1]. injection H1 as <-.
  rewrite dget_simplified_reps in H2. destruct (dget cfg_eqb i d0) as [a0|] eqn:Ea; [|discriminate H2]. injection H2 as <-.
  destruct (H c d0 i a0 Ed Ea) as (H1 & H2 & H3 & [W Sh] & Hr & Hv).
  split; [exact H1|]. split; [exact H2|]. split; [exact H3|]. split; [split|split].
  - apply awf_amap, W.
  - exact Sh.
  - exact Hr.
  - intros idx Hi. rewrite aget_amap; [|exact W|rewrite Sh, Hr; apply inb_rng, Hi]. rewrite simp_ok. apply Hv, Hi.
Qed.

Lemma simplify_Inv x : hoare (Inv anyX) (simplify_tensor x) (fun _ => Inv anyX) (Inv anyX).
Proof.
  unfold simplify_tensor. apply b_get. intros o Ho.
  assert (W : forall w, Inv anyX w /\ obj_of w x = Some o -> Inv anyX w) by (intros w Hw; apply Hw).
  apply b_opt; [exact W|]. intros c Hc.
  eapply h_bind; [apply (coord_components_II (fun w => Inv anyX w /\ obj_of w x = Some o)); exact W|]. intro_.
  destruct (o_rank o =? 0); [destruct (flat_map snd (o_comps o)); [apply h_ret; exact W|apply h_raise; exact W]|].
  eapply h_weak; [|apply (put_Inv anyX anyX)]; [intros w [H1 H2]; eauto| |auto].
  apply (OK_comps anyX); [exact Ho|exact I| |].
  - intros E. destruct Ho as (_ & _ & Ho & _). apply stored_simplified, (Ho E).
  - intros E. destruct Ho as (_ & _ & _ & Ho & _). apply stored_simplified, (Ho E).
Qed.

Lemma history_Inv o w : history_op m o -> Inv anyX w -> Inv anyX (snd (run_op o w)).
Proof.
  intros Hh Hw.
  assert (G : forall (k : M unit), hoare (Inv anyX) k (fun _ => Inv anyX) (Inv anyX) -> Inv anyX (snd (k w))).
  { intros k Hk. specialize (Hk w Hw). destruct (k w) as [[y|e] w']; exact Hk. }
  destruct o; cbn in Hh; try contradiction; cbn [run_op]; apply G.
  - eapply h_bind; [apply get_components_Inv|]. intro_. apply h_ret; auto.
  - apply change_indices_Inv, Hh.
  - apply change_coords_Inv.
  - apply change_name_Inv.
  - apply change_symbol_Inv.
  - apply simplify_Inv.
Qed.

Lemma after_Inv ops w : Forall (history_op m) ops -> Inv anyX w -> Inv anyX (after ops w).
Proof.
  intros H. revert w. induction H as [|o ops Ho H IH]; intros w Hw; [exact Hw|]. cbn. apply IH, history_Inv; assumption.
Qed.

Lemma get_value c i w a w' : Inv anyX w -> get_components t (Some c) (Some i) w = (Ok a, w') ->
  holds n (g_r g) a (with_indices g c i (g_T g c)).
Proof.
  intros Hw. unfold get_components. unfold mbind at 1, getobj. destruct (obj_of w t) as [o|]; [|discriminate].
  change ((get_representation t c i) w = (Ok a, w') -> holds n (g_r g) a (with_indices g c i (g_T g c))). intros E. pose proof (get_representation_Inv t c i w Hw) as H.
  rewrite E in H. destruct H as [_ [H _]]. apply H. reflexivity.
Qed.

Lemma get_metric_value c i w a w' : Inv anyX w -> get_components m (Some c) (Some i) w = (Ok a, w') ->
  holds n 2 a (with_indices g c i (fG c)).
Proof.
  intros Hw. unfold get_components. unfold mbind at 1, getobj. destruct (obj_of w m) as [o|]; [|discriminate].
  change ((get_representation m c i) w = (Ok a, w') -> holds n 2 a (with_indices g c i (fG c))). intros E. pose proof (get_representation_Inv m c i w Hw) as H.
  rewrite E in H. destruct H as [_ [_ H]]. apply H. reflexivity.
Qed.
Lemma get_metric_system c i w a w' : Inv anyX w -> get_components m (Some c) (Some i) w = (Ok a, w') -> S c.
Proof.
  intros Hw. unfold get_components. unfold mbind at 1, getobj. destruct (obj_of w m) as [o|]; [|discriminate].
  change ((get_representation m c i) w = (Ok a, w') -> S c). intros E. pose proof (get_representation_Inv m c i w Hw) as H.
  rewrite E in H. destruct H as [_ [_ H]]. apply H. reflexivity.
Qed.
End History.

Section Final.
Context {A : AlgOps} {L : AlgLaws A} {DL : DiffLaws A} {SL : SubsLaws A} {IL : InvLaws A}.

Lemma represents_Inv g t m w : represents g t m w -> Inv g t m (cls_of w) anyX w.
Proof.
  intros (Ty & Ct & Cm & (ot & Ht & Ot) & (om & Hm & Om) & HS). split; [reflexivity|]. split.
  - intros i o Ho. destruct (Ty i o Ho) as [T1 T2]. split; [exact T1|]. split; [exact T2|].
    split; [intros ->; assert (o = ot) by congruence; subst; exact Ot|].
    split; [intros ->; assert (o = om) by congruence; subst; exact Om|].
    split; [|exact I]. intros Hi. destruct (HS i Hi) as (_ & o' & Ho' & Hok). assert (o = o') by congruence. subst. exact Hok.
  - intros i [[-> _]|[-> |Hi]]; [eauto|eauto|]. destruct (HS i Hi) as (_ & o' & Ho' & _). eauto.
Qed.

Lemma Inv_represents g t m cl w : cl t = Some CTensor -> cl m = Some CMetric -> (forall c, g_sys g c -> cl c = Some CCoordinates) ->
  Inv g t m cl anyX w -> represents g t m w.
Proof.
  intros c1 c2 c3 (H1 & H2 & H3). split; [|split; [rewrite H1; exact c1|split; [rewrite H1; exact c2|]]].
  - intros i o Ho. destruct (H2 i o Ho) as (a & b & _). split; intros x Hx; rewrite H1; auto.
  - destruct (H3 t ltac:(left; split; [reflexivity|rewrite c1; discriminate])) as [ot Ht]. destruct (H3 m ltac:(auto)) as [om Hm]. split; [|split].
    + exists ot. split; [exact Ht|]. destruct (H2 t ot Ht) as (_ & _ & c & _). apply c. reflexivity.
    + exists om. split; [exact Hm|]. destruct (H2 m om Hm) as (_ & _ & _ & c & _). apply c. reflexivity.
    + intros c Hc. split; [rewrite H1; auto|]. destruct (H3 c ltac:(auto)) as [oc Hoc]. exists oc. split; [exact Hoc|].
      destruct (H2 c oc Hoc) as (_ & _ & _ & _ & e & _). apply e, Hc.
Qed.

Theorem history_sound g t m w ops :
  consistent g -> represents g t m w -> Forall (history_op m) ops ->
  represents g t m (after ops w) /\
  (forall c i a w', get_components t (Some c) (Some i) (after ops w) = (Ok a, w') ->
     holds (g_n g) (g_r g) a (with_indices g c i (g_T g c))) /\
  (forall c i a w', get_components m (Some c) (Some i) (after ops w) = (Ok a, w') ->
     holds (g_n g) 2 a (with_indices g c i (mat_comps (g_G g c)))).
Proof.
  intros HC HR Hops. pose proof (represents_Inv g t m w HR) as HI. destruct HR as (Ty & Ct & Cm & _ & _ & HS).
  assert (cS : forall c, g_sys g c -> cls_of w c = Some CCoordinates) by (intros c Hc; apply HS, Hc).
  assert (Ct' : forall k, cls_of w t = Some k -> k = CTensor) by congruence.
  pose proof (after_Inv g HC t m (cls_of w) Ct' Cm ops w Hops HI) as HI'.
  split; [exact (Inv_represents g t m (cls_of w) _ Ct Cm cS HI')|]. split; intros c i a w' E.
  - exact (get_value g HC t m (cls_of w) Ct' Cm c i _ a w' HI' E).
  - exact (get_metric_value g HC t m (cls_of w) Ct' Cm c i _ a w' HI' E).
Qed.

Lemma holds_aeq n r a b f : holds n r a f -> holds n r b f -> aeq a b.
Proof.
  intros ([Wa Sa] & Ra & Ga) ([Wb Sb] & Rb & Gb). split; [congruence|]. intros idx Hi. rewrite Sa, Ra in Hi.
  apply inb_rng in Hi. rewrite Ga, Gb by exact Hi. reflexivity.
Qed.

Theorem history_independent g t m w ops ops' c i a b w1 w2 :
  consistent g -> represents g t m w -> Forall (history_op m) ops -> Forall (history_op m) ops' ->
  get_components t (Some c) (Some i) (after ops w) = (Ok a, w1) ->
  get_components t (Some c) (Some i) (after ops' w) = (Ok b, w2) -> aeq a b.
Proof.
  intros HC HR H1 H2 E1 E2.
  destruct (history_sound g t m w ops HC HR H1) as (_ & F1 & _). destruct (history_sound g t m w ops' HC HR H2) as (_ & F2 & _).
  exact (holds_aeq _ _ _ _ _ (F1 _ _ _ _ E1) (F2 _ _ _ _ E2)).
Qed.

(** the same without a tensor *)
Definition no_tensor (w : world) : oid := length (heap w).
Lemma no_tensor_cls w : cls_of w (no_tensor w) = None.
Proof. unfold cls_of, no_tensor. rewrite (proj2 (nth_error_None _ _)) by lia. reflexivity. Qed.
Lemma metric_represents_Inv g m w : metric_represents g m w -> Inv g (no_tensor w) m (cls_of w) anyX w.
Proof.
  intros (Ty & Cm & (om & Hm & Om) & HS). split; [reflexivity|]. split.
  - intros i o Ho. destruct (Ty i o Ho) as [T1 T2]. split; [exact T1|]. split; [exact T2|].
    split; [intros ->; unfold obj_of, no_tensor in Ho; rewrite (proj2 (nth_error_None _ _)) in Ho by lia; discriminate|].
    split; [intros ->; assert (o = om) by congruence; subst; exact Om|].
    split; [|exact I]. intros Hi. destruct (HS i Hi) as (_ & o' & Ho' & Hok). assert (o = o') by congruence. subst. exact Hok.
  - intros i [[-> Hn]|[-> |Hi]]; [rewrite no_tensor_cls in Hn; destruct Hn; reflexivity|eauto|]. destruct (HS i Hi) as (_ & o' & Ho' & _). eauto.
Qed.
Lemma Inv_metric_represents g t m cl w : cl m = Some CMetric -> (forall c, g_sys g c -> cl c = Some CCoordinates) ->
  Inv g t m cl anyX w -> metric_represents g m w.
Proof.
  intros c2 c3 (H1 & H2 & H3). split; [|split; [rewrite H1; exact c2|]].
  - intros i o Ho. destruct (H2 i o Ho) as (a & b & _). split; intros x Hx; rewrite H1; auto.
  - destruct (H3 m ltac:(auto)) as [om Hm]. split.
    + exists om. split; [exact Hm|]. destruct (H2 m om Hm) as (_ & _ & _ & c & _). apply c. reflexivity.
    + intros c Hc. split; [rewrite H1; auto|]. destruct (H3 c ltac:(auto)) as [oc Hoc]. exists oc. split; [exact Hoc|].
      destruct (H2 c oc Hoc) as (_ & _ & _ & _ & e & _). apply e, Hc.
Qed.
Theorem metric_history_sound g m w ops :
  consistent g -> metric_represents g m w -> Forall (history_op m) ops ->
  metric_represents g m (after ops w) /\
  (forall c i a w', get_components m (Some c) (Some i) (after ops w) = (Ok a, w') ->
     g_sys g c /\ holds (g_n g) 2 a (with_indices g c i (mat_comps (g_G g c)))).
Proof.
  intros HC HR Hops. pose proof (metric_represents_Inv g m w HR) as HI. destruct HR as (Ty & Cm & _ & HS).
  assert (cS : forall c, g_sys g c -> cls_of w c = Some CCoordinates) by (intros c Hc; apply HS, Hc).
  assert (Ct' : forall k, cls_of w (no_tensor w) = Some k -> k = CTensor) by (rewrite no_tensor_cls; discriminate).
  pose proof (after_Inv g HC _ m (cls_of w) Ct' Cm ops w Hops HI) as HI'.
  split; [exact (Inv_metric_represents g _ m (cls_of w) _ Cm cS HI')|]. intros c i a w' E.
  split; [exact (get_metric_system g HC _ m (cls_of w) Ct' Cm c i _ a w' HI' E)|].
  exact (get_metric_value g HC _ m (cls_of w) Ct' Cm c i _ a w' HI' E).
Qed.
End Final.
