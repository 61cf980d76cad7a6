(** The norm squared of a tensor. *)
From Coq Require Import DecimalString DecimalNat.
From Verif Require Import Alg Alg_P Arr Arr_P Spec UtilsM Utils_P Arr2_P Act_P RL_P Tensor_P TensorM WorldM SpecWorld World_P Registry_P CalcM SpecCalc Keep_P Calc_P Calc2_P Calc3_P Calc4_P Trace_P Run_P CurvM SpecCurv Form_P Form2_P CurvRun_P.
Local Open Scope nat_scope.

(** *** x0, x1, ... *)
Lemma string_of_uint_inj u v : NilEmpty.string_of_uint u = NilEmpty.string_of_uint v -> u = v.
Proof. intros H. assert (E : Some u = Some v) by (rewrite <- !NilEmpty.usu, H; reflexivity). congruence. Qed.
Lemma numbered_nodup k : NoDup (numbered k).
Proof.
  unfold numbered. apply FinFun.Injective_map_NoDup; [|apply seq_NoDup]. intros i j H. apply append_inj in H.
  apply string_of_uint_inj in H. apply Unsigned.to_uint_inj, H.
Qed.
Lemma numbered_length k : length (numbered k) = k.
Proof. unfold numbered. rewrite map_length. apply seq_length. Qed.

Lemma without_self s : without s s = [].
Proof.
  destruct (without s s) as [|x l] eqn:E; [reflexivity|]. assert (H : In x (without s s)) by (rewrite E; left; reflexivity).
  apply without_in in H. tauto.
Qed.
Lemma common_self s : common s s = s.
Proof.
  unfold common. assert (H : forall l, incl l s -> filter (fun x => existsb (String.eqb x) s) l = l); [|apply H, incl_refl].
  induction l as [|x l IH]; intros Hl; [reflexivity|]. cbn [filter].
  replace (existsb (String.eqb x) s) with true; [f_equal; apply IH; intros y Hy; apply Hl; right; exact Hy|].
  symmetry. apply existsb_exists. exists x. split; [apply Hl; left; reflexivity|apply String.eqb_refl].
Qed.
Lemma opposite_self s i : NoDup s -> length i = length s -> opposite s i s i (map Z.opp i).
Proof.
  intros Nd Hl. split; [rewrite map_length; exact Hl|]. intros j x z Hx Hz. rewrite nth_error_map in Hz. split.
  - intros p z1 Hp Hz1. assert (p = j).
    { eapply NoDup_nth_error; [exact Nd|apply nth_error_Some; congruence|congruence]. }
    subst p. rewrite Hz1 in Hz. cbn in Hz. congruence.
  - intros N. apply nth_error_In in Hx. contradiction.
Qed.
Lemma opp_valid i : valid_cfg i -> valid_cfg (map Z.opp i).
Proof. intros H. apply Forall_forall. intros z Hz. apply in_map_iff in Hz as (y & <- & Hy). apply (proj1 (Forall_forall _ _) H) in Hy. lia. Qed.

Lemma dset_keys {V} c (v u : V) (l : list (oid * V)) : dget Nat.eqb c l = Some u -> map fst (dset Nat.eqb c v l) = map fst l.
Proof.
  induction l as [|[k' v'] l IH]; [discriminate|]. cbn [dget dset]. destruct (Nat.eqb_spec c k') as [->|N]; [reflexivity|].
  intros H. cbn [map fst]. f_equal. auto.
Qed.

Section Convert.
Context {A : AlgOps} {L : AlgLaws A} {D : DiffLaws A}.
Add Ring Kring : kring (setoid keq_equiv kring_ext).
Variables (n : nat) (m c : oid) (name : string) (xs : list string) (g gi : nat -> nat -> K).
Notation session w := (metric_session w n m c name xs g gi).
Notation value w := (tensor_value w n m c).
Notation conversion i j h := (converted n g gi i j h).

Lemma rng_spec idx r : in_range n r idx -> length idx = r /\ rng n idx.
Proof. intros H. exact H. Qed.

(** From one configuration to another and on to a third. *)
Lemma converted_comp i j k h idx : inverse_fun n g gi -> valid_cfg i -> valid_cfg j -> valid_cfg k -> length j = length i -> length k = length i ->
  in_range n (length i) idx ->
  keq (act n (map (fun st => conv g gi (fst st) (snd st)) (combine j k)) (conversion i j h) idx) (conversion i k h idx).
Proof.
  intros Inv Vi Vj Vk Lj Lk [Li Hr]. unfold converted.
  rewrite act_comp by (rewrite map_length, combine_length; lia).
  apply act_mext; [repeat (rewrite map_length || rewrite combine_length); lia|exact Hr|].
  clear Li Hr idx h. revert j k Vj Vk Lj Lk. induction Vi as [|z i Hz Vi IH]; intros [|y j] [|x k] Vj Vk Lj Lk; cbn in Lj, Lk; try discriminate; [constructor|].
  inversion Vj as [|y' j' Hy Vj' E1]; subst. inversion Vk as [|x' k' Hx Vk' E2]; subst. cbn [combine map fst snd]. constructor; [|apply IH; auto].
  apply conv_comp; assumption.
Qed.
Lemma converted_self i h idx : in_range n (length i) idx -> keq (conversion i i h idx) (h idx).
Proof.
  intros [Li Hr]. unfold converted. apply act_id; [rewrite map_length, combine_length; lia|exact Hr|].
  apply Forall_forall. intros M HM. apply in_map_iff in HM as ([s t] & <- & Hin). cbn [fst snd].
  assert (s = t) as ->; [|unfold conv; rewrite Z.eqb_refl; intros x y _ _; reflexivity].
  clear - Hin. induction i as [|z i IH]; [destruct Hin|]. cbn [combine] in Hin. destruct Hin as [E|H]; [congruence|auto].
Qed.

Definition grew (t : oid) (w w2 : world) : Prop :=
  insts w2 = insts w /\ length (heap w2) = length (heap w) /\ (forall j, cls_of w2 j = cls_of w j) /\
  (forall j, j <> t -> obj_of w2 j = obj_of w j) /\
  exists o o', obj_of w t = Some o /\ obj_of w2 t = Some o' /\ same_attrs o o' /\ comps_le o o'.

Lemma convert_get w t i h j : session w -> value w t i h -> stored_right w n c t g gi i h -> valid_cfg j -> length j = length i ->
  (cls_of w t = Some CMetric -> t = m) ->
  exists b w2, get_components t (Some c) (Some j) w = (Ok b, w2) /\ holds n (length i) b (conversion i j h) /\
    session w2 /\ value w2 t i h /\ stored_right w2 n c t g gi i h /\ grew t w w2.
Proof.
  intros HS V SR Vj Lj NM. assert (HS' := HS).
  destruct HS' as (Ty & Ig & Tu & Hn & [Cc _] & Ic & Nc & _ & Cm & Im & Nm & Sy & Inv & om & G & Hom & Enm & Mm & Im' & Rm & (Com & Lim & dm & Hdm & Tab) & Gv).
  assert (V' := V). destruct V' as (k & o & a & Hk & Nk & Ho & Mo & Ei & Ro & (Co & d & Hd & Ha) & Hh).
  destruct (dget cfg_eqb j d) as [b|] eqn:Hj.
  { exists b, w. split; [apply (get_stored w t k o c j d b); auto; congruence|]. split; [eapply SR; eauto|].
    split; [exact HS|]. split; [exact V|]. split; [exact SR|]. split; [reflexivity|]. split; [reflexivity|]. split; [reflexivity|].
    split; [reflexivity|]. exists o, o. split; [exact Ho|]. split; [exact Ho|]. split; [apply same_attrs_refl|]. intros c' d' i' a' H1 H2. eauto. }
  assert (Vi : valid_cfg i) by (apply (SR o d (o_indices o) a Ho Hd) in Ha; rewrite Ei in Ha; apply Ha).
  assert (Kt : k <> CMetric).
  { intros ->. assert (t = m) by auto. subst t. rewrite Hom in Ho. injection Ho as <-. rewrite Hdm in Hd. injection Hd as <-.
    rewrite Im' in Ei. subst i. destruct j as [|z0 [|z1 [|? ?]]]; cbn in Lj; try discriminate. destruct (Tab z0 z1 Vj) as [E _]. congruence. }
  assert (Nt : t <> m) by congruence. assert (Ntc : t <> c) by congruence.
  destruct d as [|[src a0] d0]; [discriminate|].
  assert (Hsrc : dget cfg_eqb src ((src, a0) :: d0) = Some a0) by (cbn [dget]; rewrite cfg_eqb_refl; reflexivity).
  destruct (SR o _ src a0 Ho Hd Hsrc) as (Vs & Ls & Ca0 & Ra0 & Va0).
  assert (Vl : valid_cfg [-1; -1]%Z) by (constructor; [right; reflexivity|]; constructor; [right; reflexivity|constructor]).
  assert (Vu : valid_cfg [1; 1]%Z) by (constructor; [left; reflexivity|]; constructor; [left; reflexivity|constructor]).
  destruct (Tab (-1)%Z (-1)%Z Vl) as (Eg & Cg & Rg). destruct (Tab 1%Z 1%Z Vu) as (Egi & Cgi & Rgi).
  assert (Sg : square n (G (-1) (-1))%Z) by (destruct Cg as [Wg Sg]; split; [exact Wg|rewrite Sg, Rg; reflexivity]).
  assert (Sgi : square n (G 1 1)%Z) by (destruct Cgi as [Wg Sgi]; split; [exact Wg|rewrite Sgi, Rgi; reflexivity]).
  destruct (raise_lower_spec n _ _ src j a0 Hn Sg Sgi Vs Vj Ca0 ltac:(lia) ltac:(lia)) as (b & Er & Wb & Sb & Gb).
  assert (Rb : rank b = length i) by (unfold rank in *; rewrite Sb; exact Ra0).
  assert (Hb : holds n (length i) b (conversion i j h)).
  { split; [split; [exact Wb|rewrite Rb, Sb, <- Ra0; apply Ca0]|]. split; [exact Rb|]. intros idx Hi.
    destruct Ca0 as [Wa Sa]. rewrite Sa, Ra0 in Gb. rewrite Gb by (apply inb_rng; exact Hi).
    rewrite <- (converted_comp i src j h idx Inv Vi Vs Vj Ls Lj Hi). destruct Hi as [Hl Hr].
    rewrite (act_ext n _ (aget a0) (conversion i src h)); [|rewrite map_length, combine_length; lia|exact Hr|].
    2:{ intros ks H1 H2. apply Va0. split; [lia|exact H2]. }
    apply act_mext; [rewrite map_length, combine_length; lia|exact Hr|].
    apply Forall2_map_combine. intros [s1 s2] _. cbn [fst snd]. unfold conv. destruct (s1 =? s2)%Z; [intros x y _ _; reflexivity|].
    destruct (s2 =? 1)%Z; intros x y Hx Hy; unfold mfun; apply Gv; assumption. }
  set (o' := set_comps (dset Nat.eqb c (dset cfg_eqb j b ((src, a0) :: d0)) (o_comps o)) o).
  destruct (put_spec w t o o' Ho) as (w2 & Ep & P1 & P2 & P3 & P4).
  assert (O2 : obj_of w2 t = Some o') by (rewrite P4, Nat.eqb_refl; reflexivity).
  assert (Oth : forall x, x <> t -> obj_of w2 x = obj_of w x) by (intros x Hx; rewrite P4; destruct (Nat.eqb_spec t x); [congruence|reflexivity]).
  assert (D2 : dget Nat.eqb c (o_comps o') = Some (dset cfg_eqb j b ((src, a0) :: d0))) by apply dget_dset_same.
  assert (ES : store t c j b w = (Ok tt, w2)).
  { unfold store. rewrite (bind_ok _ _ o w w) by (apply getobj_ok, Ho). rewrite Hd. exact Ep. }
  assert (Erl : w_raise_lower t c j w = (Ok tt, w2)).
  { unfold w_raise_lower. rewrite (bind_ok _ _ o w w) by (apply getobj_ok, Ho). rewrite (bind_ok _ _ m w w) by (apply mopt_ok, Mo).
    rewrite (bind_ok _ _ true w w).
    2:{ unfold metric_check. rewrite (bind_ok _ _ om w w) by (apply getobj_ok, Hom). unfold dmem. rewrite Hdm. reflexivity. }
    rewrite (bind_ok _ _ tt w w) by reflexivity. rewrite (bind_ok _ _ o w w) by (apply getobj_ok, Ho).
    rewrite (bind_ok _ _ _ w w (mopt_ok _ _ _ _ Hd)). rewrite (bind_ok _ _ (src, a0) w w) by reflexivity.
    assert (Hlk : forall z0 z1, valid_cfg [z0; z1] -> lookup m c [z0; z1] w = (Ok (G z0 z1), w)).
    { intros z0 z1 Hz. unfold lookup. rewrite (bind_ok _ _ om w w) by (apply getobj_ok, Hom). rewrite (bind_ok _ _ dm w w) by (apply mopt_ok, Hdm).
      apply mopt_ok. apply Tab, Hz. }
    rewrite (bind_ok _ _ _ w w (Hlk (-1)%Z (-1)%Z Vl)).
    rewrite (bind_ok _ _ _ w w (Hlk 1%Z 1%Z Vu)).
    rewrite (bind_ok _ _ b w w) by (apply mlift_ok, Er). exact ES. }
  assert (Eg2 : get_components t (Some c) (Some j) w = (Ok b, w2)).
  { unfold get_components. rewrite (bind_ok _ _ o w w) by (apply getobj_ok, Ho). rewrite (bind_ok _ _ c w w) by reflexivity.
    unfold get_representation. rewrite (bind_ok _ _ true w w) by (unfold isinstance; rewrite Cc; reflexivity). cbn [negb].
    rewrite (bind_ok _ _ o w w) by (apply getobj_ok, Ho).
    rewrite (bind_ok _ _ tt w w).
    2:{ apply mlift_ok, validate_ok; [exact Vj|discriminate|intros q Hq; injection Hq as <-; congruence]. }
    rewrite (bind_ok _ _ true w w2).
    2:{ assert (Ht : tensor_check t c j w = (Ok true, w2)).
        { unfold tensor_check. rewrite (bind_ok _ _ o w w) by (apply getobj_ok, Ho). rewrite Hd. unfold dmem. rewrite Hj.
          rewrite (bind_ok _ _ _ _ _ Erl). reflexivity. }
        unfold check_representation. rewrite Hk. destruct k; try exact Ht; congruence. }
    rewrite (bind_ok _ _ tt w2 w2) by reflexivity. unfold lookup. rewrite (bind_ok _ _ o' w2 w2) by (apply getobj_ok, O2).
    rewrite (bind_ok _ _ _ w2 w2 (mopt_ok _ _ _ _ D2)). apply mopt_ok, cget_set_same. }
  assert (Le : comps_le o o').
  { intros c' d' i' a' H1 H2. destruct (Nat.eq_dec c' c) as [->|N].
    - rewrite Hd in H1. injection H1 as <-. eexists. split; [exact D2|]. destruct (list_eq_dec Z.eq_dec i' j) as [->|N]; [congruence|].
      rewrite cget_set_other by exact N. exact H2.
    - exists d'. split; [|exact H2]. unfold o'. cbn [set_comps o_comps]. rewrite dget_dset_other by exact N. exact H1. }
  assert (Sa : same_attrs o o') by (repeat split).
  exists b, w2. split; [exact Eg2|]. split; [exact Hb|].
  assert (Rf : forall x, refers o' x -> refers o x).
  { intros x [H|H]; [|right; exact H]. unfold o' in H. cbn [set_comps o_comps] in H. left.
    rewrite (dset_keys _ _ _ _ Hd) in H. exact H. }
  assert (Gd : good w2).
  { split; [apply (kept_typed w w2); [eapply get_components_kept; [exact Ty|exact Eg2]|exact Ty]|]. split.
    - assert (H := get_components_II (insts w) t (Some c) (Some j) w (conj Ig eq_refl)). rewrite Eg2 in H. apply H.
    - intros x Hx (ox & Hox & En) (y & oy & Hy & N & Hoy & Hr). rewrite P1 in Hx, Hy. rewrite P4 in Hox, Hoy.
      apply (Tu x Hx).
      + destruct (Nat.eqb_spec t x) as [<-|_]; [exists o; split; [exact Ho|injection Hox as <-; exact En]|exists ox; auto].
      + destruct (Nat.eqb_spec t y) as [<-|_]; [injection Hoy as <-; exists t, o; split; [exact Hy|]; split; [exact N|]; split; [exact Ho|apply Rf, Hr]|exists y, oy; auto]. }
  assert (V2 : value w2 t i h).
  { exists k, o', a. split; [rewrite P3; exact Hk|]. split; [exact Nk|]. split; [exact O2|]. split; [exact Mo|]. split; [exact Ei|]. split; [exact Ro|].
    split; [|exact Hh]. apply (stored_le c o o' a Sa Le). split; [exact Co|]. eauto. }
  split; [|split; [exact V2|split]].
  - destruct HS as (_ & _ & _ & _ & [_ (oc & dc & xc & Hoc & Hdc)] & _ & _ & (oc' & Hoc' & Hsy) & _).
    destruct Gd as (G1 & G2 & G3). split; [exact G1|]. split; [exact G2|]. split; [exact G3|]. split; [exact Hn|].
    split; [split; [rewrite P3; exact Cc|exists oc, dc, xc; rewrite Oth by congruence; auto]|]. split; [rewrite P1; exact Ic|].
    split; [intros (ox & E & E'); rewrite Oth in E by congruence; apply Nc; exists ox; auto|]. split; [exists oc'; rewrite Oth by congruence; auto|].
    split; [rewrite P3; exact Cm|]. split; [rewrite P1; exact Im|].
    split; [intros (ox & E & E'); rewrite Oth in E by congruence; apply Nm; exists ox; auto|]. split; [exact Sy|]. split; [exact Inv|].
    exists om, G. rewrite Oth by congruence. split; [exact Hom|]. split; [exact Enm|]. split; [exact Mm|]. split; [exact Im'|]. split; [exact Rm|].
    split; [split; [exact Com|split; [exact Lim|exists dm; auto]]|exact Gv].
  - intros ox dx jx bx Hox Hdx Hbx. rewrite O2 in Hox. injection Hox as <-. assert (Edx : dx = dset cfg_eqb j b ((src, a0) :: d0)) by congruence. rewrite Edx in Hbx.
    destruct (list_eq_dec Z.eq_dec jx j) as [->|N].
    + rewrite cget_set_same in Hbx. injection Hbx as <-. auto.
    + rewrite cget_set_other in Hbx by exact N. eapply SR; eauto.
  - split; [exact P1|]. split; [exact P2|]. split; [exact P3|]. split; [exact Oth|]. exists o, o'. auto.
Qed.

(** Calc, the new tensor with the metric and the coordinates of [t], and clean-up. *)
Lemma norm_end w0 w (x : calc) t F nm h : session w0 -> form w0 m c w -> tens n m c w x [] [] F -> nm <> "TEMP"%string ->
  ~ named w0 "TEMP" t -> (exists i h', value w0 t i h') ->
  (forall f, keq (F f) (h [])) ->
  exists q w', (let! r := run_calc x "Result" "" [] in let! a := get_components r None None in
      let! o := getobj t in let! q := make_tensor CTensor nm a (o_metric o) (o_coords o) [] "" in finish_calc r ;; mret q) w = (Ok q, w') /\
    good w' /\ adds m c [q] w0 w' /\ length (heap w0) <= q /\ In q (insts w') /\ named w' nm q /\ value w' q [] h.
Proof.
  intros HS Fw T Hnm Nt (i & h' & k & o & a & Hk & Nk & Ho & Mo & Ei & Ro & (Co & _) & _) Hh.
  assert (Hi : same_indices [] [] [] []) by (split; [reflexivity|split; [reflexivity|intros y z; reflexivity]]).
  destruct (result_run w0 n m c name xs g gi HS w x [] [] F [] [] Fw T (or_introl eq_refl) Hi) as (r & b & w1 & E1 & G1 & A1 & Lr & Ir & Ur & Kr & Or & Cb & Rb & Vi & Lo & Vb).
  assert (SW := session_adds w0 n m c name xs g gi HS _ _ G1 A1). assert (Hsys : coordinate_system w1 c n) by apply SW.
  assert (Eg : get_components r None None w1 = (Ok b, w1)).
  { assert (H : get_components r (Some c) (Some []) w1 = (Ok b, w1)).
    { apply (stored_default_get w1 r CTensor (tobj "Result" "" [] c m b) c b); auto; [discriminate|apply tobj_stored|apply Hsys]. }
    rewrite (get_default w1 r _ c Or eq_refl). exact H. }
  destruct (finish_run w0 n m c name xs g gi HS w1 CTensor nm b [] "" r G1 A1 Lr Ir Ur) as (q & w2 & E2 & G2 & A2 & Lt & It & Kt & Ot); try assumption.
  { eexists. split; [exact Or|discriminate]. }
  assert (Ho1 : obj_of w1 t = Some o) by (apply A1; [exact Ho|intros E; apply Nt; exists o; auto]).
  assert (SW' := SW). destruct SW' as (_ & _ & _ & _ & _ & _ & _ & _ & _ & _ & _ & _ & _ & om & G & Hom & _ & _ & _ & _ & (Com & _) & _).
  rewrite (bind_ok _ _ om w1 w1) in E2 by (apply getobj_ok, Hom). rewrite Com in E2.
  exists q, w2. split; [rewrite (bind_ok _ _ _ _ _ E1), (bind_ok _ _ _ _ _ Eg); rewrite (bind_ok _ _ o w1 w1) by (apply getobj_ok, Ho1); rewrite Mo, Co; exact E2|].
  split; [exact G2|]. split; [exact A2|]. split; [exact Lt|]. split; [exact It|].
  split; [eexists; split; [exact Ot|reflexivity]|]. exists CTensor, (tobj nm "" [] c m b), b.
  split; [exact Kt|]. split; [discriminate|]. split; [exact Ot|]. split; [reflexivity|]. split; [reflexivity|]. split; [reflexivity|]. split; [apply tobj_stored|].
  split; [exact Cb|]. split; [exact Rb|]. intros idx [Li _]. destruct idx; [|discriminate].
  assert (E := Vb (fun _ => 0)). cbn in E. rewrite E; [apply Hh|intros y []].
Qed.

Lemma only_adds_trans t nm w w2 w' q : grew t w w2 -> ~ named w "TEMP" t -> adds m c [q] w2 w' -> named w' nm q -> only_adds_to t ["TEMP"%string; nm] w w'.
Proof.
  intros (g1 & g2 & g3 & g4 & o & o' & Ho & Ho' & Sa & Le) Nt (a1 & a2 & a3 & _) Hq. split.
  - intros j oj Hj Nj. destruct (Nat.eq_dec j t) as [->|N].
    + rewrite Ho in Hj. injection Hj as <-. destruct (a2 t o' Ho') as (H1 & H2 & H3); [destruct Sa as [-> _]; exact Nj|].
      split; [rewrite H2; apply g3|]. split; [rewrite <- g1; exact H3|]. exists o'. split; [exact H1|]. split; [congruence|]. split; [exact Sa|exact Le].
    + assert (Hj2 : obj_of w2 j = Some oj) by (rewrite g4; assumption). destruct (a2 j oj Hj2 Nj) as (H1 & H2 & H3).
      split; [rewrite H2; apply g3|]. split; [rewrite <- g1; exact H3|]. exists oj. split; [exact H1|]. split; [reflexivity|]. split; [apply same_attrs_refl|]. eauto.
  - intros j Hj. destruct (a3 j Hj) as [[H _]|[[<-|[]]|H]].
    + left. rewrite <- g1. exact H.
    + right. exists nm. split; [right; left; reflexivity|exact Hq].
    + right. exists "TEMP"%string. split; [left; reflexivity|exact H].
Qed.

Theorem norm_run w t i h tn : session w -> named w tn t -> tn <> "TEMP"%string -> value w t i h -> stored_right w n c t g gi i h ->
  (cls_of w t = Some CMetric -> t = m) ->
  let nm := (tn ++ " Norm Squared")%string in
  let N := fun _ : list nat => norm_of n g gi i h in
  known w n m c nm [] N ->
  exists q w', calc_norm_squared t w = (Ok q, w') /\ In q (insts w') /\ named w' nm q /\ value w' q [] N /\
    only_adds_to t ["TEMP"%string; nm] w w' /\ session w' /\ value w' t i h /\ stored_right w' n c t g gi i h /\ known w' n m c nm [] N.
Proof.
  intros HS Nm Nn V SR NM nm N Kn. assert (V' := V). destruct V' as (k & o & a & Hk & Nk & Ho & Mo & Ei & Ro & Sd & Hh).
  assert (Hname : o_name o = tn) by (destruct Nm as (o1 & E & E'); congruence).
  assert (Nt : ~ named w "TEMP" t) by (intros (o1 & E & E'); congruence).
  assert (Hnm : nm <> "TEMP"%string) by (apply suffix_not_temp; cbn; lia).
  destruct Sd as (Co & d & Hd & Ha).
  assert (Vi : valid_cfg i) by (assert (Ha' := Ha); apply (SR o d (o_indices o) a Ho Hd) in Ha'; rewrite Ei in Ha'; apply Ha').
  assert (Sd : stored_default o c a) by (split; [exact Co|eauto]).
  unfold calc_norm_squared. rewrite Hk.
  assert (Body : exists q w', (let! o := getobj t in
     let name := (o_name o ++ " Norm Squared")%string in
     let! known := find_named name in
     match known with
     | Some i => mret i
     | None =>
       let s := numbered (length (o_indices o)) in
       let! x := calc_call t s in
       let! y := calc_call t s in
       let! z := matmul0 x y in
       let! r := run_calc z "Result" "" [] in
       let! a := get_components r None None in
       let! o := getobj t in
       let! q := make_tensor CTensor name a (o_metric o) (o_coords o) [] "" in
       finish_calc r ;;
       mret q
     end) w = (Ok q, w') /\ In q (insts w') /\ named w' nm q /\ value w' q [] N /\
    only_adds_to t ["TEMP"%string; nm] w w' /\ session w' /\ value w' t i h /\ stored_right w' n c t g gi i h /\ known w' n m c nm [] N).
  2:{ destruct k; [congruence|exact Body..]. }
  rewrite (bind_ok _ _ o w w) by (apply getobj_ok, Ho). cbv zeta. rewrite Hname, Ei. fold nm.
  destruct (first_named_spec w nm (insts w)) as (r & E & Hr); [apply HS|].
  rewrite (bind_ok _ _ r w w) by exact E. destruct r as [j|].
  { destruct Hr as [Hj Nj]. exists j, w. split; [reflexivity|]. split; [exact Hj|]. split; [exact Nj|]. split; [apply Kn; assumption|].
    split; [|auto]. split; [|auto]. intros x ox Hx _. split; [reflexivity|]. split; [auto|]. exists ox. split; [exact Hx|]. split; [reflexivity|].
    split; [apply same_attrs_refl|eauto]. }
  set (s := numbered (length i)). assert (Ns : NoDup s) by apply numbered_nodup. assert (Ls : length s = length i) by apply numbered_length.
  assert (FB := form_base w n m c name xs g gi HS).
  destruct (runs_call w n m c name xs g gi HS w t s i h FB V Ns Ls Vi) as (x & w1 & Ex & _ & _ & -> & Tx).
  rewrite (bind_ok _ _ _ _ _ Ex), (bind_ok _ _ _ _ _ Ex).
  (* the product *)
  assert (Mul : exists z w2 w3, matmul0 x x w = (Ok z, w3) /\ session w2 /\ value w2 t i h /\ stored_right w2 n c t g gi i h /\ grew t w w2 /\
    form w2 m c w3 /\ tens n m c w3 z [] [] (fun _ => norm_of n g gi i h)).
  { destruct (Nat.eq_dec (length i) 0) as [Z|NZ].
    - destruct i as [|? ?]; [|discriminate]. assert (s = []) as Es by (destruct s; [reflexivity|discriminate]). rewrite Es in Tx.
      destruct (runs_mul_scalar w n m c name xs g gi HS w x x [] [] _ [] [] _ FB Tx Tx (or_introl eq_refl)) as (z & w3 & Ez & F3 & _ & Tz).
      exists z, w, w3. split; [exact Ez|]. split; [exact HS|]. split; [exact V|]. split; [exact SR|].
      split. { split; [reflexivity|]. split; [reflexivity|]. split; [reflexivity|]. split; [reflexivity|]. exists o, o. split; [exact Ho|]. split; [exact Ho|]. split; [apply same_attrs_refl|intros c' d' i' a' H1 H2; eauto]. }
      split; [exact F3|]. eapply tens_ext; [|exact Tz]. intros f _. cbn [map]. unfold norm_of, converted. cbn [length map combine tuples lsum].
      unfold act. cbn. ring.
    - destruct (convert_get w t i h (map Z.opp i) HS V SR (opp_valid i Vi) (map_length _ _) NM) as (b & w2 & Eb & Hb & S2 & V2 & SR2 & Gr).
      destruct (tens_get w n m c name xs g gi HS w x s i _ FB Tx) as (t1 & k1 & o1 & a1 & X1 & K1 & N1 & M1 & E1 & S1 & C1 & Ca1 & R1 & Rl1 & Y1 & G1 & V1).
      assert (Et : t1 = t).
      { assert (Ec : x = mkCalc (Some t) s RTensor).
        { assert (X := calc_init_plain w t k o a w s RTensor Hk Nk Ho). unfold calc_call in Ex. rewrite X in Ex; [congruence| | | |exact Ns].
          - rewrite (get_default w t o c Ho Co). apply (stored_default_get w t k o c a); auto; [apply HS|congruence|congruence].
          - congruence.
          - destruct Hh as (_ & -> & _). congruence. }
        destruct X1 as (_ & T1 & _). rewrite Ec in T1. cbn in T1. congruence. }
      subst t1. assert (Eo : o1 = o) by (destruct X1 as (_ & _ & O1 & _); congruence). subst o1.
      destruct (matmul_run w x x t o t o m c n (map Z.opp i) a1 w b w2) as (r & Er & Cr & Rr & Vr); try assumption.
      + apply HS.
      + apply HS.
      + apply HS.
      + lia.
      + lia.
      + rewrite Y1, E1. apply opposite_self; [exact Ns|congruence].
      + apply Hb.
      + destruct Hb as (_ & -> & _). congruence.
      + cbv zeta in Er, Rr, Vr. rewrite Y1 in Er, Rr, Vr. rewrite !without_self, common_self in Vr. rewrite without_self in Er. cbn [app] in Er, Vr.
        assert (Ew : indices_without s (o_indices o) s = []).
        { apply length_zero_iff_nil. rewrite indices_without_length by congruence. rewrite without_self. reflexivity. }
        rewrite Ew in Er, Rr. cbn [app] in Er, Rr.
        exists (new_calc w2 []), w2. eexists. split; [exact Er|]. split; [exact S2|]. split; [exact V2|]. split; [exact SR2|]. split; [exact Gr|].
        assert (FB2 := form_base w2 n m c name xs g gi S2).
        split; [apply (form_fresh w2 n m c name xs g gi S2 w2 "T" [] r FB2)|].
        apply (tens_new w2 n m c w2 [] [] r); auto; [constructor|constructor|].
        intros f Hf. rewrite (Vr f Hf). unfold norm_of. rewrite Ls. apply lsum_ext. intros ks Hks. apply in_tuples in Hks as [Lk Hk'].
        assert (Em : map (assign s ks f) s = ks) by (apply assign_map; [exact Ns|congruence]).
        assert (Hb1 : forall y, In y s -> assign s ks f y < n).
        { intros y Hy. apply (proj1 (Forall_forall _ _) Hk'). apply (eq_ind _ (fun l => In (assign s ks f y) l) (in_map _ _ _ Hy) _ Em). }
        rewrite (V1 _ Hb1). rewrite Em. destruct Hb as (_ & _ & Hb). rewrite Hb by (split; assumption). reflexivity. }
  destruct Mul as (z & w2 & w3 & Ez & S2 & V2 & SR2 & Gr & F3 & Tz). rewrite (bind_ok _ _ _ _ _ Ez).
  assert (Gr' := Gr). destruct Gr' as (g1 & g2 & g3 & g4 & oa & ob & Hoa & Hob & Sa & Le).
  assert (Nm2 : named w2 tn t).
  { exists ob. split; [exact Hob|]. destruct Sa as [-> _]. congruence. }
  assert (Nt2 : ~ named w2 "TEMP" t) by (destruct Nm2 as (o1 & H1 & H2); intros (o2 & H3 & H4); congruence).
  destruct (norm_end w2 w3 z t _ nm N S2 F3 Tz Hnm Nt2 (ex_intro _ i (ex_intro _ h V2)) (fun _ => reflexivity _)) as (q & w4 & E4 & G4 & A4 & Lq & Iq & Nq & Vq).
  exists q, w4. split; [exact E4|]. split; [exact Iq|]. split; [exact Nq|]. split; [exact Vq|].
  split; [eapply only_adds_trans; eauto|]. split; [exact (session_adds w2 n m c name xs g gi S2 _ _ G4 A4)|].
  split; [apply (value_adds m c [nm] w2 w4 n t i h); [eapply adds_addsn; eauto|exact Nt2|exact V2]|].
  assert (Ob4 : obj_of w4 t = Some ob) by (apply A4; [exact Hob|intros E5; apply Nt2; exists ob; auto]).
  split; [intros ox dx jx bx Hox; rewrite Ob4 in Hox; injection Hox as <-; apply (SR2 ob dx jx bx Hob)|].
  apply (known_new m c q w2 w4 n nm [] N A4 Hnm Nq Vq).
  intros j Hj (oj & Hoj & Enj). exfalso. rewrite g1 in Hj. apply (Hr j Hj). destruct (Nat.eq_dec j t) as [->|Nj].
  - exists oa. split; [exact Hoa|]. rewrite Hob in Hoj. injection Hoj as <-. destruct Sa as [Sa _]. congruence.
  - exists oj. rewrite <- g4 by exact Nj. auto.
Qed.
End Convert.
