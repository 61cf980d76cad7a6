(** Constructors: which arguments are accepted, and what is made of them. *)
From Coq Require Import Bool.
From Verif Require Import Alg Arr Arr_P Spec UtilsM TensorM WorldM SpecWorld World_P Jacobian_P Registry_P Metric_P WrapM.

Section Wrap.
Context {A : AlgOps}.
Implicit Types (w : world) (o : obj).

Lemma bind_ok' {X Y} (m : M X) (f : X -> M Y) a w w1 : m w = (Ok a, w1) -> mbind m f w = f a w1.
Proof. unfold mbind. intros ->. reflexivity. Qed.

Lemma bind_inv {X Y} (m : M X) (f : X -> M Y) w b w' : mbind m f w = (Ok b, w') ->
  exists a w1, m w = (Ok a, w1) /\ f a w1 = (Ok b, w').
Proof. unfold mbind. destruct (m w) as [[a|e] w1]; [eauto|discriminate]. Qed.

Lemma bind_mret {X Y} (a : X) (f : X -> M Y) w : mbind (mret a) f w = f a w.
Proof. reflexivity. Qed.

Lemma validate_object_spec name comps symbol indices :
  validate_object name comps symbol indices = Ok tt <->
  exists a, (exists s, name = VStr s) /\ (exists s, symbol = VStr s \/ symbol = VSymbol s) /\ as_array comps = Some a /\
    Forall (fun d => d = hd 0 (shape a)) (shape a) /\ (indices = VNone \/ index_tuple (rank a) indices).
Proof.
  split.
  - intros Eo. unfold validate_object in Eo. destruct name as [|s| | | | | | |]; try discriminate.
    assert (Hs : exists s, symbol = VStr s \/ symbol = VSymbol s) by (destruct symbol; try discriminate Eo; eauto).
    destruct (as_array comps) as [a|] eqn:Ea; [|destruct symbol; discriminate]. exists a.
    assert (E2 : (if negb (forallb (fun d => d =? hd 0 (shape a)) (shape a)) then Err ETensorDimension else validate_indices indices (Some (rank a)) None) = Ok tt).
    { destruct Hs as [s' [->| ->]]; exact Eo. }
    destruct (forallb _ (shape a)) eqn:Es; cbn [negb] in E2; [|discriminate].
    split; [eauto|]. split; [exact Hs|]. split; [reflexivity|]. split.
    + apply Forall_forall. intros k Hk. rewrite forallb_forall in Es. apply Nat.eqb_eq, Es, Hk.
    + destruct (validate_indices_spec indices (Some (rank a)) None) as (_ & H5 & H6).
      destruct indices as [| | |l| | | | |]; try (exfalso; rewrite H6 in E2; [discriminate|discriminate|discriminate]); [left; reflexivity|].
      right. exists l. split; [reflexivity|]. destruct (H5 l eq_refl) as [[H7 _] _]. destruct (H7 E2) as (V & N & _). split; [exact V|]. apply N; reflexivity.
  - intros (a & [s ->] & [s' Hs] & Ea & Hsh & Hi). unfold validate_object. rewrite Ea.
    assert (E1 : forallb (fun d => d =? hd 0 (shape a)) (shape a) = true).
    { apply forallb_forall. intros k Hk. rewrite Forall_forall in Hsh. apply Nat.eqb_eq, Hsh, Hk. }
    assert (E3 : validate_indices indices (Some (rank a)) None = Ok tt).
    { destruct (validate_indices_spec indices (Some (rank a)) None) as (H4 & H5 & _).
      destruct Hi as [Hi|(l & Hi & V & Hl)]; [apply H4, Hi|]. destruct (H5 l Hi) as [[_ H7] _]. apply H7.
      split; [exact V|]. split; intros k Hk; [injection Hk as <-; exact Hl|discriminate]. }
    rewrite E1, E3. destruct Hs as [-> | ->]; reflexivity.
Qed.

(** *** Coordinates *)
Lemma new_coordinates_valid w name comps indices symbol tr :
  (exists i w', new_coordinates name comps indices symbol tr w = (Ok i, w')) <->
  exists a, (comps = VArr a \/ exists sh l, comps = VSyms sh l /\ a = mkArr sh (map ksym l)) /\ rank a = 1 /\
    (exists s, name = VStr s) /\ (exists s, symbol = VStr s \/ symbol = VSymbol s) /\
    (indices = VNone \/ indices = VTuple [1]%Z /\ forall c r, In (c, r) tr -> ~ In RBad r).
Proof.
  assert (Hv : (exists i w', new_coordinates name comps indices symbol tr w = (Ok i, w')) <-> validate_coordinates name comps indices symbol tr = Ok tt).
  { unfold new_coordinates, mbind, mlift. split.
    - destruct (validate_coordinates _ _ _ _ _) as [[]|e]; [reflexivity|]. intros (i & w' & H). discriminate.
    - intros H. rewrite H. assert (Ha : exists a, as_array comps = Some a).
      { unfold validate_coordinates in H. destruct (validate_object _ _ _ _) as [[]|] eqn:Eo; [|discriminate]. apply validate_object_spec in Eo as (a & _ & _ & Ea & _). eauto. }
      destruct Ha as [a ->]. cbn [mopt]. unfold mret. rewrite alloc_fresh. eauto. }
  rewrite Hv. clear Hv w.
  assert (Hsh : forall a : arr, rank a = 1 -> Forall (fun d => d = hd 0 (shape a)) (shape a)).
  { intros a. unfold rank. destruct (shape a) as [|x [|]]; try discriminate. intros _. constructor; [reflexivity|constructor]. }
  assert (Hb : forallb (fun cr : oid * list rarg => forallb rule_ok (snd cr)) tr = true <-> forall c r, In (c, r) tr -> ~ In RBad r).
  { rewrite forallb_forall. split.
    - intros H c r Hin Hbad. specialize (H _ Hin). cbn in H. rewrite forallb_forall in H. specialize (H _ Hbad). discriminate.
    - intros H [c r] Hin. cbn. apply forallb_forall. intros x Hx. destruct x; try reflexivity. exfalso. exact (H c r Hin Hx). }
  assert (Has : forall a, as_array comps = Some a <-> (comps = VArr a \/ exists sh l, comps = VSyms sh l /\ a = mkArr sh (map ksym l))).
  { intros a. split; [destruct comps; cbn; intros H; try discriminate; injection H as <-; eauto|]. intros [->|(sh & l & -> & ->)]; reflexivity. }
  unfold validate_coordinates. split.
  - destruct (validate_object _ _ _ _) as [[]|] eqn:Eo; cbn [rbind]; [|discriminate].
    apply validate_object_spec in Eo as (a & Hn & Hs & Ea & _ & Hi). rewrite Ea. intros H. exists a.
    destruct Hi as [->|(l & -> & V & Hl)].
    + cbn in H. destruct (Nat.eqb_spec (rank a) 1) as [R|]; [|discriminate]. split; [apply Has, Ea|]. auto.
    + destruct (cfg_eqb l [1]%Z) eqn:El; cbn [negb] in H; [|discriminate]. apply cfg_eqb_spec in El. subst l.
      cbn [andb] in H. destruct (forallb _ tr) eqn:Et; cbn [negb] in H; [|discriminate].
      destruct (Nat.eqb_spec (rank a) 1) as [R|]; [|discriminate]. split; [apply Has, Ea|]. specialize (proj1 Hb eq_refl). auto 6.
  - intros (a & Ha & R & Hn & Hs & Hi). apply Has in Ha.
    assert (Eo : validate_object name comps symbol indices = Ok tt).
    { apply validate_object_spec. exists a. split; [exact Hn|]. split; [exact Hs|]. split; [exact Ha|]. split; [apply Hsh, R|].
      destruct Hi as [Hi|[-> _]]; [auto|]. right. exists [1]%Z. split; [reflexivity|]. split; [constructor; [auto|constructor]|symmetry; exact R]. }
    rewrite Eo, Ha. cbn [rbind]. destruct Hi as [->|[-> Ht]].
    + cbn. rewrite R. reflexivity.
    + apply Hb in Ht. rewrite Ht. cbn. rewrite R. reflexivity.
Qed.

Lemma new_coordinates_object w name comps indices symbol tr i w' : new_coordinates name comps indices symbol tr w = (Ok i, w') ->
  exists o a, as_array comps = Some a /\ obj_of w' i = Some o /\ cls_of w' i = Some CCoordinates /\ obj_of w i = None /\ insts w' = insts w ++ [i] /\
    (forall j, j <> i -> obj_of w' j = obj_of w j /\ cls_of w' j = cls_of w j) /\
    VStr (o_name o) = name /\ (VStr (o_symbol o) = symbol \/ VSymbol (o_symbol o) = symbol) /\ o_rank o = 1 /\
    o_comps o = [(i, [([1]%Z, a)])] /\ o_trans o = map (fun cr => (fst cr, stored_rules (snd cr))) tr /\ o_jacs o = [] /\
    o_indices o = match indices with VTuple l => l | _ => [-1]%Z end /\ (forall sh l, comps = VSyms sh l -> o_syms o = l).
Proof.
  intros H. destruct (proj1 (new_coordinates_valid w name comps indices symbol tr) (ex_intro _ i (ex_intro _ w' H))) as (a0 & _ & _ & [s ->] & [s' Hs] & _).
  destruct (new_coordinates_spec (VStr s) comps indices symbol tr w) as [[e E]|(a & Ha & Hr & E)]; [congruence|]. rewrite E in H. injection H as <- <-.
  eexists _, a. split; [exact Ha|]. split; [rewrite obj_of_fresh, Nat.eqb_refl; reflexivity|].
  split; [unfold cls_of, fresh_world; cbn [heap]; rewrite nth_error_app2 by lia; rewrite Nat.sub_diag; reflexivity|].
  split; [apply obj_of_ge; lia|]. split; [reflexivity|]. split.
  { intros j N. split; [rewrite obj_of_fresh; destruct (Nat.eqb_spec j (length (heap w))); [contradiction|reflexivity]|apply cls_of_fresh, N]. }
  cbn. split; [reflexivity|]. split; [destruct Hs as [-> | ->]; auto|]. split; [exact Hr|]. split; [reflexivity|]. split; [reflexivity|]. split; [reflexivity|]. split.
  - rewrite Hr. destruct indices; reflexivity.
  - intros sh l ->. reflexivity.
Qed.

(** *** Metrics *)
(** The zero test says that the difference of the entries vanishes. *)
Lemma symmetric_spec (a : arr) n : shape a = [n; n] ->
  (is_symmetric n (data a) = true <-> forall i j, i < n -> j < n -> kisz (simp (ksub (aget a [i; j]) (aget a [j; i]))) = true).
Proof.
  intros Hs. unfold is_symmetric. rewrite forallb_forall. split.
  - intros H i j Hi Hj. specialize (H i (proj2 (in_seq _ _ _) (conj (Nat.le_0_l i) Hi))). rewrite forallb_forall in H.
    specialize (H j (proj2 (in_seq _ _ _) (conj (Nat.le_0_l j) Hj))). rewrite !(mat_at_aget n a _ _ Hs) in H. exact H.
  - intros H i Hi. apply forallb_forall. intros j Hj. apply in_seq in Hi, Hj. rewrite !(mat_at_aget n a _ _ Hs). apply H; lia.
Qed.

Lemma new_metric_exact w name comps c l symbol a x gi :
  validate_metric name comps symbol (VTuple l) = Ok tt -> cls_of w c = Some CCoordinates -> coord_components c w = (Ok x, w) ->
  as_array (mat_to_array comps) = Some a -> validate_base name (mat_to_array comps) symbol (VTuple l) (length (data x)) = Ok tt -> ainv a = Ok gi ->
  new_metric name comps (VObj c) (VTuple l) symbol w =
    (Ok (length (heap w)), fresh_world w CMetric (mkObj (name_of name) (sym_of symbol) l (rank a) (Some c) (Some (length (heap w)))
       [(c, dset cfg_eqb (map Z.opp l) gi (dset cfg_eqb [-1; 1]%Z (eye (hd 0 (shape a))) (dset cfg_eqb [1; -1]%Z (eye (hd 0 (shape a))) [(l, a)])))] [] [] [])).
Proof.
  intros Em Hk Hx Ha Hv Hgi. unfold new_metric. rewrite (bind_ok' _ _ tt w w) by (unfold mlift; rewrite Em; reflexivity).
  destruct (base_ctor_spec CMetric name (mat_to_array comps) (VObj c) (VTuple l) symbol None w) as [[e E]|(c' & a' & x' & Hc & _ & Ha' & _ & _ & H)].
  { exfalso. revert E. unfold base_ctor, mbind at 1, isinstance at 1. rewrite Hk. cbn [cls_eqb negb]. unfold mbind at 1. rewrite Hx, mat_to_array_idem. unfold mbind at 1, mlift at 1.
    rewrite Hv, Ha. cbn [mopt]. unfold mbind, mret. rewrite alloc_fresh. discriminate. }
  injection Hc as <-. rewrite mat_to_array_idem in Ha'. assert (a' = a) by congruence. subst a'. rewrite (bind_ok' _ _ _ _ _ H). clear H.
  assert (Hput : forall o1 o2, put (length (heap w)) o2 (fresh_world w CMetric o1) = (Ok tt, fresh_world w CMetric o2)).
  { intros o1 o2. unfold put, fresh_world. cbn [heap insts].
    rewrite nth_error_app2 by lia. rewrite Nat.sub_diag. cbn [nth_error].
    f_equal. f_equal. clear. induction (heap w) as [|y l' IH]; cbn; [reflexivity|]. rewrite IH. reflexivity. }
  cbn [default_indices]. set (o0 := mkObj _ _ _ _ _ None _ _ _ _).
  rewrite (bind_ok' _ _ o0 _ (fresh_world w CMetric o0)) by (unfold getobj; rewrite obj_of_fresh, Nat.eqb_refl; reflexivity).
  rewrite (bind_ok' _ _ _ _ _ (Hput _ _)). cbn [o_coords set_metric o0 mopt o_comps dget]. rewrite bind_mret.
  rewrite Nat.eqb_refl. cbn [mopt]. rewrite bind_mret. cbn [o_indices set_metric o0 dget]. rewrite cfg_eqb_refl.
  cbn [mopt]. rewrite bind_mret. rewrite (bind_ok' _ _ _ _ _ (Hput _ _)).
  rewrite (bind_ok' _ _ gi _ _) by (unfold mlift; rewrite Hgi; reflexivity). rewrite (bind_ok' _ _ _ _ _ (Hput _ _)).
  unfold mret. do 2 f_equal. unfold set_comps, set_metric, o0. cbn. rewrite Nat.eqb_refl. reflexivity.
Qed.

Lemma new_metric_valid {DL : DetLaws A} w name comps coords indices symbol : (forall a, array_like comps a -> awf a) ->
  (exists i w', new_metric name comps coords indices symbol w = (Ok i, w')) <->
  exists c n a, coords = VObj c /\ coordinate_system w c n /\
    (exists s, name = VStr s) /\ (exists s, symbol = VStr s \/ symbol = VSymbol s) /\
    array_like comps a /\ shape a = [n; n] /\ (indices = VTuple [-1; -1]%Z \/ indices = VTuple [1; 1]%Z) /\
    mdet0 n (data a) = false /\ (forall i j, i < n -> j < n -> kisz (simp (ksub (aget a [i; j]) (aget a [j; i]))) = true).
Proof.
  intros Hwf. split.
  - intros (t & w' & H).
    assert (Hi : exists l, indices = VTuple l).
    { destruct indices as [| | |l| | | | |]; eauto; exfalso; unfold new_metric in H;
        do 8 (apply bind_inv in H as (? & ? & _ & H)); discriminate H. }
    destruct Hi as [l ->]. destruct (new_metric_stored _ _ _ _ _ _ _ _ H) as (c & o & a & d & -> & Ha & Ho & Co & Mo & Io & Hl & Hd & Hrep). clear Ho Co Mo Io Hd Hrep.
    unfold new_metric in H. apply bind_inv in H as ([] & w0 & Ev & H). unfold mlift in Ev. destruct (validate_metric _ _ _ _) as [[]|] eqn:Em; [|discriminate]. injection Ev as <-.
    apply bind_inv in H as (self & w1 & Eb & _).
    destruct (base_ctor_spec CMetric name (mat_to_array comps) (VObj c) (VTuple l) symbol None w) as [[e E]|(c' & a' & x & Hc & Hk & Ha' & Hx & Hv & _)]; [congruence|].
    injection Hc as <-. rewrite mat_to_array_idem in Ha'. assert (a' = a) by congruence. subst a'.
    unfold validate_metric in Em. rewrite Ha in Em. destruct (validate_object _ _ _ _) as [[]|] eqn:Eo; cbn [rbind] in Em; [|discriminate].
    apply validate_object_spec in Eo as (a' & Hn & Hs & Ha'' & Hsh & Hix). assert (a' = a) by congruence. subst a'.
    destruct Hix as [Hix|(l' & El & V & Ll)]; [discriminate|]. injection El as <-.
    assert (R2 : rank a = 2) by (rewrite <- Ll; destruct Hl as [-> | ->]; reflexivity). unfold rank in R2.
    destruct (shape a) as [|n1 [|n2 [|]]] eqn:Es; try discriminate R2.
    inversion Hsh as [|? ? _ Hsh1]; subst. inversion Hsh1 as [|? ? E2 _]; subst. cbn [hd] in E2. subst n2.
    assert (Em' : (if mdet0 n1 (data a) || negb (is_symmetric n1 (data a)) then Err EValueError else
       if cfg_eqb l [1; -1]%Z || cfg_eqb l [-1; 1]%Z then Err EValueError else if length l =? 2 then Ok tt else Err EIndicesDimension) = Ok tt).
    { destruct n1 as [|[|n1]]; cbn [rbind] in Em; rewrite ?Nat.eqb_refl in Em; exact Em. }
    destruct (mdet0 n1 (data a)) eqn:Ed; [discriminate|]. destruct (is_symmetric n1 (data a)) eqn:Ey; [|discriminate].
    unfold validate_base in Hv. rewrite mat_to_array_idem, Ha in Hv. destruct (validate_object _ _ _ _) as [[]|] in Hv; cbn [rbind] in Hv; [|discriminate].
    rewrite Es in Hv. cbn [forallb] in Hv. destruct (Nat.eqb_spec n1 (length (data x))) as [En|]; [|discriminate].
    apply coord_components_spec in Hx as (oc & dc & H1 & H2 & H3).
    exists c, n1, a. split; [reflexivity|]. split; [split; [exact Hk|exists oc, dc, x; auto]|]. split; [exact Hn|]. split; [exact Hs|].
    split; [apply array_like_spec, Ha|]. split; [exact Es|]. split; [destruct Hl as [-> | ->]; auto|]. split; [exact Ed|]. apply symmetric_spec; assumption.
  - intros (c & n & a & -> & [Hk (oc & dc & x & H1 & H2 & H3 & Hn)] & Hnm & Hs & Ha & Es & Hi & Ed & Hy).
    assert (Wa := Hwf a Ha). apply array_like_spec in Ha. apply (symmetric_spec a n Es) in Hy.
    assert (Hl : exists l, indices = VTuple l /\ valid_cfg l /\ length l = 2 /\ (l = [-1; -1]%Z \/ l = [1; 1]%Z)).
    { destruct Hi as [-> | ->]; eexists; (split; [reflexivity|split; [|split; [reflexivity|auto]]]); (constructor; [auto|constructor; [auto|constructor]]). }
    destruct Hl as (l & -> & V & Ll & Hl).
    assert (Eo : validate_object name (mat_to_array comps) symbol (VTuple l) = Ok tt).
    { apply validate_object_spec. exists a. split; [exact Hnm|]. split; [exact Hs|]. split; [exact Ha|]. split.
      - rewrite Es. constructor; [reflexivity|constructor; [reflexivity|constructor]].
      - right. exists l. unfold rank. rewrite Es. auto. }
    assert (Em : validate_metric name comps symbol (VTuple l) = Ok tt).
    { unfold validate_metric. rewrite Ha, Eo. cbn [rbind]. rewrite Es.
      assert (E1 : match n with 1 => if n =? n then Ok n else Err ESymPy | _ => if n =? n then Ok n else Err ESymPy end = Ok n) by (rewrite Nat.eqb_refl; destruct n as [|[|]]; reflexivity).
      assert (E2 : (if mdet0 n (data a) || negb (is_symmetric n (data a)) then Err EValueError else
        if cfg_eqb l [1; -1]%Z || cfg_eqb l [-1; 1]%Z then Err EValueError else if length l =? 2 then Ok tt else Err EIndicesDimension) = Ok tt).
      { rewrite Ed, Hy. destruct Hl as [-> | ->]; reflexivity. }
      destruct n as [|[|n]]; rewrite ?Nat.eqb_refl; cbn [rbind]; exact E2. }
    assert (Hg : exists gi, ainv a = Ok gi).
    { unfold ainv. rewrite Es. destruct (mdet0_minv n (data a)) as [rr Hrr]; [|exact Ed|].
      - unfold awf in Wa. rewrite Es in Wa. cbn in Wa. lia.
      - rewrite ?Nat.eqb_refl, Hrr. eauto. }
    destruct Hg as [gi Hg]. eexists _, _. apply (new_metric_exact w name comps c l symbol a x gi Em Hk).
    + apply coord_components_spec. exists oc, dc; auto.
    + exact Ha.
    + unfold validate_base. rewrite Eo, Ha. cbn [rbind]. rewrite Es. cbn [forallb]. rewrite Hn, Nat.eqb_refl. reflexivity.
    + exact Hg.
Qed.

Lemma new_metric_object w name comps coords indices symbol t w' : new_metric name comps coords indices symbol w = (Ok t, w') ->
  exists c o n a gi l, coords = VObj c /\ indices = VTuple l /\ array_like comps a /\ shape a = [n; n] /\ ainv a = Ok gi /\
    obj_of w' t = Some o /\ cls_of w' t = Some CMetric /\ obj_of w t = None /\ insts w' = insts w ++ [t] /\
    (forall j, j <> t -> obj_of w' j = obj_of w j /\ cls_of w' j = cls_of w j) /\
    VStr (o_name o) = name /\ (VStr (o_symbol o) = symbol \/ VSymbol (o_symbol o) = symbol) /\ o_rank o = 2 /\
    o_indices o = l /\ o_coords o = Some c /\ o_metric o = Some t /\
    o_comps o = [(c, [(l, a); ([1; -1]%Z, eye n); ([-1; 1]%Z, eye n); (map Z.opp l, gi)])].
Proof.
  intros H.
  assert (Hi : exists l, indices = VTuple l).
  { destruct indices as [| | |l| | | | |]; eauto; exfalso; unfold new_metric in H;
      do 8 (apply bind_inv in H as (? & ? & _ & H)); discriminate H. }
  destruct Hi as [l ->]. destruct (new_metric_stored _ _ _ _ _ _ _ _ H) as (c & o & a & d & -> & Ha & Ho & Co & Mo & Io & Hl & Hd & Hrep). clear Ho Co Mo Io Hd.
  assert (H' := H). unfold new_metric in H'. apply bind_inv in H' as ([] & w0 & Ev & H'). unfold mlift in Ev. destruct (validate_metric _ _ _ _) as [[]|] eqn:Em; [|discriminate]. injection Ev as <-.
  apply bind_inv in H' as (self & w1 & Eb & _).
  destruct (base_ctor_spec CMetric name (mat_to_array comps) (VObj c) (VTuple l) symbol None w) as [[e E]|(c' & a' & x & Hc & Hk & Ha' & Hx & Hv & _)]; [congruence|].
  injection Hc as <-. rewrite mat_to_array_idem in Ha'. assert (a' = a) by congruence. subst a'.
  assert (Hg : exists gi, ainv a = Ok gi).
  { unfold metric_representations in Hrep. destruct (ainv a) as [gi|] eqn:Eg; [eauto|]. discriminate Hrep. }
  destruct Hg as [gi Hg].
  rewrite mat_to_array_idem in Hv. rewrite (new_metric_exact w name comps c l symbol a x gi Em Hk Hx Ha Hv Hg) in H. injection H as <- <-.
  assert (Em' := Em). unfold validate_metric in Em'. rewrite Ha in Em'. destruct (validate_object _ _ _ _) as [[]|] eqn:Eo; [|discriminate].
  apply validate_object_spec in Eo as (a' & [s ->] & [s' Hs] & Ha'' & Hsh & Hix). assert (a' = a) by congruence. subst a'.
  destruct Hix as [Hix|(l' & El & V & Ll)]; [discriminate|]. injection El as <-.
  assert (R2 : rank a = 2) by (rewrite <- Ll; destruct Hl as [-> | ->]; reflexivity). assert (R2' := R2). unfold rank in R2.
  destruct (shape a) as [|n1 [|n2 [|]]] eqn:Es; try discriminate R2.
  inversion Hsh as [|? ? _ Hsh1]; subst. inversion Hsh1 as [|? ? E2 _]; subst. cbn [hd] in E2. subst n2.
  eexists c, _, n1, a, gi, _. split; [reflexivity|]. split; [reflexivity|]. split; [apply array_like_spec, Ha|]. split; [exact Es|]. split; [exact Hg|].
  split; [rewrite obj_of_fresh, Nat.eqb_refl; reflexivity|].
  split; [unfold cls_of, fresh_world; cbn [heap]; rewrite nth_error_app2 by lia; rewrite Nat.sub_diag; reflexivity|].
  split; [apply obj_of_ge; lia|]. split; [reflexivity|]. split.
  { intros j N. split; [rewrite obj_of_fresh; destruct (Nat.eqb_spec j (length (heap w))); [contradiction|reflexivity]|apply cls_of_fresh, N]. }
  cbn [o_name o_symbol o_rank o_indices o_coords o_metric o_comps]. split; [reflexivity|]. split; [destruct Hs as [-> | ->]; auto|]. split; [exact R2'|].
  split; [reflexivity|]. split; [reflexivity|]. split; [reflexivity|]. cbn [hd]. destruct Hl as [-> | ->]; reflexivity.
Qed.
End Wrap.
