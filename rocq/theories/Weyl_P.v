(** Reading a new tensor in another configuration, and the run of the Weyl tensor. *)
From Verif Require Import Alg Alg_P Arr Arr_P Spec UtilsM Utils_P Arr2_P Act_P RL_P TensorM WorldM SpecWorld World_P Registry_P CalcM SpecCalc Keep_P Calc_P Calc2_P Calc3_P Calc4_P Trace_P Run_P CurvM SpecCurv Form_P Form2_P CurvRun_P CurvRun2_P.
Local Open Scope nat_scope.

Section Weyl.
Context {A : AlgOps} {L : AlgLaws A} {D : DiffLaws A}.
Add Ring Kring : kring (setoid keq_equiv kring_ext).

Definition both (nm sy : string) (i j : list Z) (c m : oid) (a b : arr) : obj :=
  mkObj nm sy i (length i) (Some c) (Some m) [(c, [(i, a); (j, b)])] [] [] [].
Definition put_world (w : world) (t : oid) (o : obj) : world := mkW (set_nth t (CTensor, Some o) (heap w)) (insts w).

Lemma put_tensor w t o o' : cls_of w t = Some CTensor -> obj_of w t = Some o -> put t o' w = (Ok tt, put_world w t o').
Proof.
  intros Hk Ho. unfold put, put_world. unfold cls_of in Hk. destruct (nth_error (heap w) t) as [[k x]|]; [|discriminate]. injection Hk as ->. reflexivity.
Qed.
Lemma put_world_obj w t o j : t < length (heap w) -> obj_of (put_world w t o) j = if t =? j then Some o else obj_of w j.
Proof.
  intros Hl. unfold obj_of, put_world. cbn [heap]. rewrite nth_set_nth. apply Nat.ltb_lt in Hl. rewrite Hl, andb_true_r. destruct (t =? j); reflexivity.
Qed.
Lemma put_world_cls w t o j : cls_of w t = Some CTensor -> cls_of (put_world w t o) j = cls_of w j.
Proof.
  intros Hk. assert (Hl := cls_of_lt _ _ _ Hk). unfold cls_of, put_world. cbn [heap]. rewrite nth_set_nth. apply Nat.ltb_lt in Hl. rewrite Hl, andb_true_r.
  destruct (Nat.eqb_spec t j) as [<-|N]; [|reflexivity]. symmetry. exact Hk.
Qed.

Lemma raise_get n m c w t nm sy i j a om G : 1 <= n -> cls_of w t = Some CTensor -> cls_of w m = Some CMetric -> cls_of w c = Some CCoordinates ->
  obj_of w t = Some (tobj nm sy i c m a) -> cubic n a -> rank a = length i -> valid_cfg i -> valid_cfg j -> length j = length i -> i <> j ->
  obj_of w m = Some om -> metric_tables n om c G ->
  exists b, get_components t (Some c) (Some j) w = (Ok b, put_world w t (both nm sy i j c m a b)) /\ cubic n b /\ rank b = length j /\
    forall idx, in_range n (length i) idx ->
      keq (aget b idx) (act n (map (fun st => conv (mfun (G (-1)%Z (-1)%Z)) (mfun (G 1%Z 1%Z)) (fst st) (snd st)) (combine i j)) (aget a) idx).
Proof.
  intros Hn Hk Hm Hc Ho Ca Ra Vi Vj Lj Nij Hom (Cm & _ & d & Hd & HG).
  destruct (HG (-1)%Z (-1)%Z) as (D1 & Q1 & R1); [apply valid_cfgb_spec; reflexivity|].
  destruct (HG 1%Z 1%Z) as (D2 & Q2 & R2); [apply valid_cfgb_spec; reflexivity|].
  assert (S1 : square n (G (-1)%Z (-1)%Z)) by (destruct Q1 as [H1 H2]; split; [exact H1|rewrite H2, R1; reflexivity]).
  assert (S2 : square n (G 1%Z 1%Z)) by (destruct Q2 as [H1 H2]; split; [exact H1|rewrite H2, R2; reflexivity]).
  destruct (raise_lower_spec n _ _ i j a Hn S1 S2 Vi Vj Ca (eq_sym Ra) ltac:(congruence)) as (b & Eb & Wb & Sb & Vb).
  assert (Ntm : t <> m) by congruence.
  assert (Cb : cubic n b) by (split; [exact Wb|destruct Ca as [_ E]; rewrite Sb; unfold rank; rewrite Sb; exact E]).
  exists b. split; [|split; [exact Cb|split]].
  - set (o := tobj nm sy i c m a) in *. unfold get_components. rewrite (bind_ok _ _ o w w) by (apply getobj_ok, Ho).
    rewrite (bind_ok _ _ c w w) by reflexivity. unfold get_representation.
    rewrite (bind_ok _ _ true w w) by (unfold isinstance; rewrite Hc; reflexivity). cbn [negb].
    rewrite (bind_ok _ _ o w w) by (apply getobj_ok, Ho).
    rewrite (bind_ok _ _ tt w w).
    2:{ apply mlift_ok, validate_ok; [exact Vj|discriminate|intros q Hq; injection Hq as <-; auto]. }
    set (w' := put_world w t (both nm sy i j c m a b)).
    assert (Hl := obj_of_lt _ _ _ Ho).
    assert (Ho' : obj_of w' t = Some (both nm sy i j c m a b)) by (unfold w'; rewrite put_world_obj by exact Hl; rewrite Nat.eqb_refl; reflexivity).
    assert (Ne : cfg_eqb j i = false) by (destruct (cfg_eqb j i) eqn:E; [apply cfg_eqb_spec in E; congruence|reflexivity]).
    assert (Ne' : cfg_eqb i j = false) by (destruct (cfg_eqb i j) eqn:E; [apply cfg_eqb_spec in E; congruence|reflexivity]).
    assert (Ee : cfg_eqb j j = true) by (apply cfg_eqb_spec; reflexivity).
    rewrite (bind_ok _ _ true w w').
    2:{ unfold check_representation. rewrite Hk. unfold tensor_check. rewrite (bind_ok _ _ o w w) by (apply getobj_ok, Ho).
        assert (Hdo : dget Nat.eqb c (o_comps o) = Some [(i, a)]) by (cbn; rewrite Nat.eqb_refl; reflexivity). rewrite Hdo.
        assert (Hdm : dmem cfg_eqb j [(i, a)] = false) by (unfold dmem; cbn [dget]; rewrite ?Ne, ?Ne'; reflexivity). rewrite Hdm.
        rewrite (bind_ok _ _ tt w w'); [reflexivity|]. unfold w_raise_lower. rewrite (bind_ok _ _ o w w) by (apply getobj_ok, Ho).
        rewrite (bind_ok _ _ m w w) by reflexivity.
        rewrite (bind_ok _ _ true w w) by (unfold metric_check; rewrite (bind_ok _ _ om w w) by (apply getobj_ok, Hom); unfold dmem; rewrite Hd; reflexivity).
        rewrite (bind_ok _ _ tt w w) by reflexivity. rewrite (bind_ok _ _ o w w) by (apply getobj_ok, Ho).
        rewrite (bind_ok _ _ [(i, a)] w w) by (apply mopt_ok; cbn; rewrite Nat.eqb_refl; reflexivity).
        rewrite (bind_ok _ _ (i, a) w w) by reflexivity.
        rewrite (bind_ok _ _ (G (-1)%Z (-1)%Z) w w).
        2:{ unfold lookup. rewrite (bind_ok _ _ om w w) by (apply getobj_ok, Hom). rewrite (bind_ok _ _ d w w) by (apply mopt_ok, Hd). apply mopt_ok, D1. }
        rewrite (bind_ok _ _ (G 1%Z 1%Z) w w).
        2:{ unfold lookup. rewrite (bind_ok _ _ om w w) by (apply getobj_ok, Hom). rewrite (bind_ok _ _ d w w) by (apply mopt_ok, Hd). apply mopt_ok, D2. }
        rewrite (bind_ok _ _ b w w) by (apply mlift_ok, Eb). unfold store. rewrite (bind_ok _ _ o w w) by (apply getobj_ok, Ho).
        cbv zeta. rewrite Hdo. rewrite (put_tensor w t o _ Hk Ho). unfold w'. f_equal. f_equal. unfold both, set_comps, o, tobj.
        cbn [o_name o_symbol o_indices o_rank o_coords o_metric o_comps o_syms o_trans o_jacs dset]. rewrite Nat.eqb_refl. rewrite ?Ne, ?Ne'. cbn [dset]. reflexivity. }
    rewrite (bind_ok _ _ tt w' w') by reflexivity. unfold lookup. rewrite (bind_ok _ _ _ w' w') by (apply getobj_ok, Ho').
    rewrite (bind_ok _ _ [(i, a); (j, b)] w' w') by (apply mopt_ok; cbn; rewrite Nat.eqb_refl; reflexivity).
    apply mopt_ok. cbn. rewrite ?Ne, ?Ne', ?Ee. reflexivity.
  - unfold rank. rewrite Sb. unfold rank in Ra. congruence.
  - intros idx [Hl Hr]. apply Vb. destruct Ca as [_ ->]. rewrite Ra. apply inb_rng; split; [exact Hl|exact Hr].
Qed.

Lemma both_refers nm sy i j c m a b k : refers (both nm sy i j c m a b) k -> k = c \/ k = m.
Proof. intros [[H|[]]|[H|[H|[]]]]; cbn in H; [auto|injection H as <-; auto|injection H as <-; auto]. Qed.
Lemma both_le nm sy i j c m a b : i <> j -> same_attrs (tobj nm sy i c m a) (both nm sy i j c m a b) /\ comps_le (tobj nm sy i c m a) (both nm sy i j c m a b).
Proof.
  intros N. split; [repeat split|]. intros c' d i' a' H1 H2. cbn in H1. destruct (c' =? c) eqn:E; [|discriminate]. injection H1 as <-.
  exists [(i, a); (j, b)]. split; [cbn; rewrite E; reflexivity|]. cbn [dget] in H2 |- *. destruct (cfg_eqb i' i); [exact H2|discriminate].
Qed.
Lemma grow_put w t nm sy i j c m a b : i <> j -> cls_of w t = Some CTensor -> obj_of w t = Some (tobj nm sy i c m a) ->
  grow w (put_world w t (both nm sy i j c m a b)).
Proof.
  intros N Hk Ho k o Hok. split; [apply put_world_cls, Hk|]. rewrite put_world_obj by (eapply obj_of_lt, Ho).
  destruct (Nat.eqb_spec t k) as [<-|Nk].
  - rewrite Ho in Hok. injection Hok as <-. exists (both nm sy i j c m a b). split; [reflexivity|]. apply both_le, N.
  - exists o. split; [exact Hok|]. split; [apply same_attrs_refl|]. intros c' d i' a' H1 H2. eauto.
Qed.
Lemma typed_put w t nm sy i j c m a b : typed w -> cls_of w t = Some CTensor -> obj_of w t = Some (tobj nm sy i c m a) ->
  typed (put_world w t (both nm sy i j c m a b)).
Proof.
  intros Ht Hk Ho k o. rewrite put_world_obj by (eapply obj_of_lt, Ho). destruct (Nat.eqb_spec t k) as [<-|Nk]; intros Hok.
  - injection Hok as <-. destruct (Ht t _ Ho) as [H1 H2]. split; intros x Hx; rewrite put_world_cls by exact Hk; [apply H1|apply H2]; exact Hx.
  - destruct (Ht k o Hok) as [H1 H2]. split; intros x Hx; rewrite put_world_cls by exact Hk; auto.
Qed.

Section Base.
Variables (w0 : world) (n : nat) (m c : oid) (name : string) (xs : list string) (g gi : nat -> nat -> K).
Hypothesis HS : metric_session w0 n m c name xs g gi.
Notation form := (form w0 m c).
Notation tens := (tens n m c).
Notation runs := (runs w0 m c).

Lemma form_put w t sy i j a b : form w -> length (heap w0) <= t -> cls_of w t = Some CTensor -> obj_of w t = Some (tobj "TEMP" sy i c m a) ->
  form (put_world w t (both "TEMP" sy i j c m a b)).
Proof.
  intros (Ht & Hl & Hold & l & Hi & Nl & Hj) Lt Hk Ho. split; [|split; [|split]].
  - eapply typed_put; eauto.
  - cbn [put_world heap]. rewrite set_nth_length. exact Hl.
  - intros k Hk'. cbn [put_world heap]. rewrite nth_set_nth. destruct (Nat.eqb_spec t k); [lia|]. apply Hold, Hk'.
  - exists l. split; [exact Hi|]. split; [exact Nl|]. intros k Hkl. destruct (Hj k Hkl) as (H1 & H2 & o & H3 & H4). split; [exact H1|].
    split; [cbn [put_world heap]; rewrite set_nth_length; exact H2|]. rewrite put_world_obj by (eapply obj_of_lt, Ho).
    destruct (Nat.eqb_spec t k) as [<-|Nk]; [|eauto]. eexists. split; [reflexivity|]. split; [reflexivity|]. apply both_refers.
Qed.

Definition new_tens (w : world) (y : calc) (s : list string) (i : list Z) (F : (string -> nat) -> K) : Prop :=
  tens w y s i F /\ exists t sy a, c_tensor y = Some t /\ cls_of w t = Some CTensor /\ length (heap w0) <= t /\ obj_of w t = Some (tobj "TEMP" sy i c m a).
Lemma runs_scale_new w x k s i F1 : form w -> tens w x s i F1 -> runs w (calc_mul x (OScalar k)) (fun z w' => new_tens w' z s i (fun f => kmul k (F1 f))).
Proof.
  intros F T1. destruct (tens_get w0 n m c name xs g gi HS _ _ _ _ _ F T1) as (t1 & k1 & o1 & a1 & X1 & K1 & N1 & M1 & E1 & S1 & C1 & Ca1 & R1 & Rl1 & Y1 & G1 & V1).
  assert (E := scale_run w x k t1 o1 m c n a1 (proj1 F) X1 S1 M1 (form_system w0 n m c name xs g gi HS w F) Ca1 R1).
  eexists _, _. split; [exact E|]. rewrite E1, Y1 in *. split; [eapply form_fresh; [exact HS|exact F]|]. split; [apply grow_fresh|].
  destruct X1 as (_ & _ & _ & Nx & Lx & _ & Vx). rewrite Y1, E1 in *.
  destruct (amap_values n (kmul k) a1 Ca1) as (H1 & H2 & H3). split.
  - apply (tens_new w0 n m c); try assumption. intros f Hf.
    rewrite H3, (V1 f Hf); [reflexivity|]. destruct Ca1 as [_ ->]. rewrite Rl1, <- Lx. apply inb_assign, Hf.
  - exists (length (heap w)), "T"%string, (amap (kmul k) a1). split; [reflexivity|]. split; [apply cls_fresh_new|]. split; [apply F|apply obj_fresh_new].
Qed.

(** The first index changed. *)
Lemma act_first z z' i2 G (f : list nat -> K) p idx : z <> z' -> rng n idx -> length idx = length i2 -> p < n ->
  keq (act n (map (fun st => conv (mfun (G (-1)%Z (-1)%Z)) (mfun (G 1%Z 1%Z)) (fst st) (snd st)) (combine (z :: i2) (z' :: i2))) f (p :: idx))
      (nsum n (fun q => kmul (if (z' =? 1)%Z then aget (G 1%Z 1%Z) [p; q] else aget (G (-1)%Z (-1)%Z) [p; q]) (f (q :: idx)))).
Proof.
  intros N Hr Hl Hp. cbn [combine map fst snd]. rewrite act_cons. apply nsum_ext. intros q Hq.
  assert (Hd : forall l l' : list Z, length (combine l l) = length l).
  { intros l _. rewrite combine_length. apply Nat.min_id. }
  rewrite act_id.
  - unfold conv at 1. destruct (Z.eqb_spec z z'); [contradiction|]. destruct (z' =? 1)%Z; reflexivity.
  - rewrite map_length, (Hd _ i2). symmetry. exact Hl.
  - exact Hr.
  - apply Forall_forall. intros M HM. apply in_map_iff in HM as ([u v] & <- & Huv). cbn [fst snd].
    assert (u = v). { clear - Huv. induction i2 as [|x l IH]; cbn in Huv; [destruct Huv|]. destruct Huv as [E|H]; [congruence|auto]. }
    subst v. unfold conv. rewrite Z.eqb_refl. intros a b _ _. reflexivity.
Qed.
Lemma map_assign_first y0 s p (f : string -> nat) : NoDup (y0 :: s) -> map (assign [y0] [p] f) (y0 :: s) = p :: map f s.
Proof.
  intros Nd. inversion Nd as [|? ? N1 _]; subst. cbn [map]. f_equal.
  - unfold assign. cbn [index_of]. rewrite String.eqb_refl. reflexivity.
  - apply map_ext_in. intros z Hz. unfold assign. cbn [index_of]. destruct (String.eqb_spec z y0) as [->|]; [contradiction|reflexivity].
Qed.

Lemma runs_add_raise w x y s1 i1 F1 y0 s2 i2 F2 : form w -> tens w x s1 i1 F1 -> new_tens w y (y0 :: s2) (-1 :: i2)%Z F2 ->
  is_permutation s1 (y0 :: s2) = true -> sameb s1 i1 (y0 :: s2) (1 :: i2)%Z = true ->
  runs w (calc_add x (OCalc y)) (fun z w' => tens w' z s1 i1
    (fun f => kadd (F1 f) (nsum n (fun p => kmul (gi (f y0) p) (F2 (assign [y0] [p] f)))))).
Proof.
  intros F T1 (T2 & t & sy & a & Ty & Kt & Lt & Ot) Hp Hi. apply is_permutation_spec in Hp. apply sameb_spec in Hi.
  destruct (tens_get w0 n m c name xs g gi HS _ _ _ _ _ F T1) as (t1 & k1 & o1 & a1 & X1 & K1 & N1 & M1 & E1 & S1 & C1 & Ca1 & R1 & Rl1 & Y1 & G1 & V1).
  destruct (tens_get w0 n m c name xs g gi HS _ _ _ _ _ F T2) as (t2 & k2 & o2 & a2 & X2 & K2 & N2 & M2 & E2 & S2 & C2 & Ca2 & R2 & Rl2 & Y2 & G2 & V2).
  assert (X2' := X2). destruct X2' as (_ & Ty2 & O2 & Nd2 & Ln2 & _ & Vi2). rewrite Ty in Ty2. injection Ty2 as <-. rewrite Ot in O2. injection O2 as <-.
  assert (a = a2).
  { destruct S2 as (_ & d & H1 & H2). cbn in H1. rewrite Nat.eqb_refl in H1. injection H1 as <-. cbn [dget tobj o_indices] in H2. rewrite cfg_eqb_refl in H2. congruence. }
  subst a2. cbn [o_indices tobj] in *.
  assert (HS' := HS). destruct HS' as (_ & _ & _ & _ & _ & _ & _ & _ & _ & _ & _ & _ & _ & om & G & Hom & _ & _ & _ & _ & HG & VG).
  assert (Hom' : obj_of w m = Some om) by (rewrite (proj1 (form_old w0 m c w m F (s_lt_m w0 n m c name xs g gi HS))); exact Hom).
  inversion Vi2 as [|? ? _ Vi3]; subst.
  destruct (raise_get n m c w t "TEMP" sy (-1 :: i2)%Z (1 :: i2)%Z a om G) as (b & Eb & Cb & Rb & Vb); try assumption.
  { apply (form_pos w0 n m c name xs g gi HS). }
  { apply (form_metric w0 n m c name xs g gi HS w F). }
  { apply (form_system w0 n m c name xs g gi HS w F). }
  { constructor; [auto|exact Vi3]. }
  { reflexivity. }
  { discriminate. }
  destruct (add_run w x y t1 o1 t _ m c n (1 :: i2)%Z a1 w b (put_world w t (both "TEMP" sy (-1 :: i2)%Z (1 :: i2)%Z c m a b)) (proj1 F) X1 X2) as (r & E & Cr & Rr & Vr); try assumption; try reflexivity.
  { apply (form_system w0 n m c name xs g gi HS w F). }
  { rewrite Y2. exact Hp. }
  { rewrite Y2. exact Hi. }
  eexists _, _. split; [exact E|]. assert (F' := form_put w t sy (-1 :: i2)%Z (1 :: i2)%Z a b F Lt Kt Ot).
  split; [eapply form_fresh; [exact HS|exact F']|]. split; [eapply grow_trans; [exact (grow_put w t "TEMP" sy (-1 :: i2)%Z (1 :: i2)%Z c m a b ltac:(discriminate) Kt Ot)|apply grow_fresh]|].
  destruct X1 as (_ & _ & _ & Nx & Lx & _ & Vx). apply (tens_new w0 n m c); try assumption. intros f Hf. rewrite (Vr f Hf), (V1 f Hf), Y2.
  assert (Hf2 : forall z, In z (y0 :: s2) -> f z < n) by (intros z Hz; apply Hf; apply Permutation_sym in Hp; eapply Permutation_in; eauto).
  apply kadd_proper; [reflexivity|]. rewrite Y2 in Nd2, Ln2.
  rewrite Vb.
  2:{ split; [rewrite map_length; exact Ln2|]. apply Forall_forall. intros v Hv. apply in_map_iff in Hv as (z & <- & Hz). auto. }
  cbn [map]. rewrite act_first; [|discriminate| |rewrite map_length; cbn in Ln2; lia|apply Hf2; left; reflexivity].
  2:{ apply Forall_forall. intros v Hv. apply in_map_iff in Hv as (z & <- & Hz). apply Hf2. right; exact Hz. }
  apply nsum_ext. intros q Hq. cbn [Z.eqb Pos.eqb]. destruct (VG (f y0) q) as (_ & v2 & _); [apply Hf2; left; reflexivity|exact Hq|].
  apply kmul_proper; [exact v2|]. rewrite <- V2.
  - rewrite map_assign_first by exact Nd2. reflexivity.
  - intros z Hz. unfold assign. cbn [index_of]. destruct (String.eqb_spec z y0); [exact Hq|apply Hf2, Hz].
Qed.

Lemma good_put w t nm sy i j a b : good w -> cls_of w t = Some CTensor -> obj_of w t = Some (tobj nm sy i c m a) ->
  good (put_world w t (both nm sy i j c m a b)).
Proof.
  intros (Ht & [[R1 R2] Hi] & Hu) Hk Ho. assert (Hl := obj_of_lt _ _ _ Ho).
  assert (Hob : forall k o, obj_of (put_world w t (both nm sy i j c m a b)) k = Some o -> exists o', obj_of w k = Some o' /\ o_name o' = o_name o /\ forall q, refers o q -> refers o' q).
  { intros k o. rewrite put_world_obj by exact Hl. destruct (Nat.eqb_spec t k) as [<-|N]; intros E.
    - injection E as <-. exists (tobj nm sy i c m a). split; [exact Ho|]. split; [reflexivity|]. intros q Hq. apply both_refers in Hq as [-> | ->]; [left; left; reflexivity|right; left; reflexivity].
    - exists o. auto. }
  split; [eapply typed_put; eauto|]. split; [split; [split|]|].
  - exact R1.
  - intros k Hin. rewrite put_world_obj by exact Hl. destruct (t =? k); [discriminate|apply R2, Hin].
  - intros k o q Hin E Hr. destruct (Hob k o E) as (o' & E' & _ & H). apply (Hi k o' q); auto.
  - intros k Hin (o & E & En) (q & oq & Hq & N & Eq & Hr). destruct (Hob k o E) as (o' & E' & En' & _). destruct (Hob q oq Eq) as (oq' & Eq' & _ & Hr').
    apply (Hu k Hin); [exists o'; split; [exact E'|congruence]|]. exists q, oq'. auto.
Qed.
Lemma adds_put l w t nm sy i j a b : registry_ok w0 -> adds m c l w0 w -> length (heap w0) <= t -> cls_of w t = Some CTensor -> obj_of w t = Some (tobj nm sy i c m a) ->
  adds m c l w0 (put_world w t (both nm sy i j c m a b)).
Proof.
  intros R (a1 & a2 & a3 & a4 & a5) Lt Hk Ho. assert (Hl := obj_of_lt _ _ _ Ho).
  split; [cbn [put_world heap]; rewrite set_nth_length; exact a1|]. split; [|split; [|split]].
  - intros k o Hok Hn. destruct (a2 k o Hok Hn) as (H1 & H2 & H3). rewrite put_world_obj by exact Hl. rewrite put_world_cls by exact Hk.
    destruct (Nat.eqb_spec t k) as [<-|N]; [apply obj_of_lt in Hok; lia|]. auto.
  - intros k Hk'. cbn [put_world insts] in Hk'. destruct (a3 k Hk') as [[H1 H2]|[H|(o & H & H')]]; [|auto|].
    + left. split; [exact H1|]. intros o. rewrite put_world_obj by exact Hl. destruct (Nat.eqb_spec t k) as [<-|N]; [|apply H2].
      assert (Hlt := registered_lt w0 t R H1). lia.
    + right. right. destruct (Nat.eqb_spec t k) as [<-|N].
      * exists (both nm sy i j c m a b). rewrite put_world_obj, Nat.eqb_refl by exact Hl. split; [reflexivity|]. rewrite Ho in H. injection H as <-. exact H'.
      * exists o. rewrite put_world_obj by exact Hl. destruct (Nat.eqb_spec t k); [contradiction|]. auto.
  - intros k o. rewrite put_world_obj by exact Hl. destruct (Nat.eqb_spec t k) as [<-|N]; [lia|apply a4].
  - intros q (k & o & Hin & N & E & Hr). rewrite put_world_obj in E by exact Hl. destruct (Nat.eqb_spec t k) as [<-|Nk].
    + injection E as <-. right. eapply both_refers, Hr.
    + apply a5. exists k, o. auto.
Qed.

(** The end of the Weyl tensor: the intermediate tensor stays and [ric] is deleted. *)
Lemma weyl_end w x s F order i' nm sy h ric : form w -> tens w x s (1 :: i')%Z F ->
  is_permutation s order = true -> sameb s (1 :: i')%Z order (1 :: i')%Z = true -> nm <> "TEMP"%string -> order <> [] ->
  (forall p idx, p < n -> in_range n (length i') idx -> keq (nsum n (fun q => kmul (g p q) (F (assign order (q :: idx) (fun _ => 0))))) (h (p :: idx))) ->
  In ric (insts w0) -> ~ used w0 ric -> ~ named w0 "TEMP" ric -> ric <> m -> ric <> c ->
  exists t r w4 w', (let! r := run_calc x "Result" "" order in let! t := publish m r (Some (-1 :: i')%Z) nm (-1 :: i')%Z sy in finish_calc ric ;; mret t) w = (Ok t, w') /\
    good w4 /\ adds m c [r; t] w0 w4 /\ removed w4 ric w' /\ ~ used w4 ric /\ good w' /\ In t (insts w4) /\ In r (insts w4) /\ named w4 nm t /\ named w4 "Result" r /\
    tensor_value w4 n m c t (-1 :: i')%Z h /\ length (heap w0) <= t /\ length (heap w0) <= r.
Proof.
  intros Fw T Hp Hi Hnm No Hh Iric Uric Nric Nm Nc. assert (R0 : registry_ok w0) by apply (session_good w0 n m c name xs g gi HS).
  destruct order as [|y0 order]; [congruence|]. set (ord := y0 :: order) in *.
  destruct (result_run w0 n m c name xs g gi HS w x s (1 :: i')%Z F ord (1 :: i')%Z Fw T) as (r & b & w1 & E1 & G1 & A1 & Lr & Ir & Ur & Kr & Or & Cb & Rb & Vi & Lo & Vb).
  { right. apply is_permutation_spec, Hp. }
  { apply sameb_spec, Hi. }
  change (match ord with [] => s | _ :: _ => ord end) with ord in Lo, Vb.
  assert (Nord : NoDup ord).
  { destruct T as (Es & t1 & k1 & o1 & a1 & (_ & _ & _ & Ns & _) & _). rewrite Es in Ns. eapply Permutation_NoDup; [apply is_permutation_spec, Hp|exact Ns]. }
  assert (SW := session_adds w0 n m c name xs g gi HS _ _ G1 A1).
  assert (SW' := SW). destruct SW' as (_ & _ & _ & Hn & Hsys & Ic & Ncn & _ & Hm & Im & Nmn & _ & _ & om & G & Hom & _ & _ & _ & _ & HG & VG).
  assert (Cm : o_coords om = Some c) by apply HG.
  inversion Vi as [|? ? _ Vi']; subst.
  destruct (raise_get n m c w1 r "Result" "" (1 :: i')%Z (-1 :: i')%Z b om G) as (a & Ea & Ca & Ra & Va); try assumption.
  { apply Hsys. } { constructor; [auto|exact Vi']. } { reflexivity. } { discriminate. }
  set (w2 := put_world w1 r (both "Result" "" (1 :: i')%Z (-1 :: i')%Z c m b a)) in *.
  assert (G2 : good w2) by (eapply good_put; eauto). assert (A2 : adds m c [r] w0 w2) by (eapply adds_put; eauto).
  assert (S2 := session_adds w0 n m c name xs g gi HS _ _ G2 A2).
  assert (Or2 : obj_of w2 r = Some (both "Result" "" (1 :: i')%Z (-1 :: i')%Z c m b a)) by (unfold w2; rewrite put_world_obj by (eapply obj_of_lt, Or); rewrite Nat.eqb_refl; reflexivity).
  assert (Hom2 : obj_of w2 m = Some om).
  { unfold w2. rewrite put_world_obj by (eapply obj_of_lt, Or). destruct (Nat.eqb_spec r m); [congruence|exact Hom]. }
  assert (Hm2 : cls_of w2 m = Some CMetric) by apply S2. assert (Hsys2 : coordinate_system w2 c n) by apply S2.
  set (w3 := fresh_world w2 CTensor (tobj nm sy (-1 :: i')%Z c m a)).
  assert (G3 : good w3) by (apply good_fresh; try apply S2; exact G2).
  assert (R3 : registry_ok w3) by apply G3.
  assert (A3 : adds m c ([r] ++ [length (heap w2)]) w0 w3).
  { eapply adds_trans; [exact R3|exact A2|]. apply adds_fresh; [apply G2|apply tobj_refers]. }
  destruct (passes_total 1 w3 R3 (proj2 (proj2 G3))) as (w4 & E4 & R4 & Kl).
  assert (Ep : pass (if_named "TEMP" (fun i => delete i true)) w3 = (Ok tt, w4)).
  { cbn [times] in E4. apply bind_inv in E4 as (u & w5 & E5 & E6). destruct u. unfold mret in E6. injection E6 as <-. exact E5. }
  assert (G4 := good_cleaned _ _ G3 Kl R4). assert (A4 := adds_trans m c _ _ _ _ _ R4 A3 (adds_cleaned m c _ _ Kl)). cbn [app] in A4.
  assert (Iric4 : In ric (insts w4)).
  { destruct A4 as (_ & H & _). destruct R0 as [_ R0]. specialize (R0 ric Iric). destruct (obj_of w0 ric) as [o|] eqn:Eo; [|congruence].
    apply (H ric o Eo); [intros E; apply Nric; exists o; auto|exact Iric]. }
  assert (Uric4 : ~ used w4 ric).
  { intros H. destruct A4 as (_ & _ & _ & _ & A5). destruct (A5 ric H) as [H'|[H'|H']]; contradiction. }
  destruct (delete_unused w4 ric true R4 Iric4 Uric4) as (w5 & E5 & Rm).
  destruct Kl as (_ & Kc & Ks & Kb & Kf).
  destruct (Kf r _ (obj_fresh_old _ _ _ _ _ Or2)) as [R5 R6]; [discriminate|].
  destruct (Kf (length (heap w2)) _ (obj_fresh_new _ _ _) Hnm) as [T5 T6].
  exists (length (heap w2)), r, w4, w5. split; [|split; [exact G4|split; [exact A4|split; [exact Rm|split; [exact Uric4|split; [eapply good_removed; eauto|]]]]]].
  - rewrite (bind_ok _ _ _ _ _ E1). rewrite (bind_ok _ _ (length (heap w2)) w1 w3).
    + rewrite (bind_ok _ _ tt w3 w5); [reflexivity|]. unfold finish_calc. rewrite (bind_ok _ _ tt w3 w4 Ep). exact E5.
    + unfold publish. rewrite (bind_ok _ _ a w1 w2) by (rewrite (get_default_coords w1 r _ c _ Or eq_refl); exact Ea).
      rewrite (bind_ok _ _ om w2 w2) by (apply getobj_ok, Hom2). rewrite Cm. apply (make_tensor_ok w2 CTensor nm a m c (-1 :: i')%Z sy n); auto. constructor; [auto|exact Vi'].
  - split; [apply T6; cbn [w3 fresh_world insts]; apply in_app_iff; right; left; reflexivity|].
    split; [apply R6; cbn [w3 fresh_world insts]; apply in_app_iff; left; exact Ir|].
    split; [eexists; split; [exact T5|reflexivity]|]. split; [eexists; split; [exact R5|reflexivity]|].
    split; [|split; [cbn [w2 put_world heap]; rewrite set_nth_length; apply A1|exact Lr]].
    exists CTensor, (tobj nm sy (-1 :: i')%Z c m a), a. split; [rewrite Kc; apply cls_fresh_new|]. split; [discriminate|]. split; [exact T5|].
    split; [reflexivity|]. split; [reflexivity|]. split; [reflexivity|]. split; [apply tobj_stored|]. split; [exact Ca|]. split; [exact Ra|].
    intros idx [Hl Hr]. destruct idx as [|p idx]; [discriminate|]. inversion Hr as [|? ? Hp0 Hr']; subst. cbn in Hl.
    rewrite Va by (split; [cbn; lia|exact Hr]). rewrite act_first; [|discriminate|exact Hr'|lia|exact Hp0].
    rewrite <- (Hh p idx Hp0) by (split; [lia|exact Hr']). apply nsum_ext. intros q Hq. cbn [Z.eqb Pos.eqb].
    destruct (VG p q Hp0 Hq) as (v1 & _). apply kmul_proper; [exact v1|].
    assert (Em : map (assign ord (q :: idx) (fun _ => 0)) ord = q :: idx) by (apply assign_map; [exact Nord|cbn [length] in *; lia]).
    rewrite <- Em at 1. apply Vb. intros y Hy.
    assert (Hall : Forall (fun z => z < n) (q :: idx)) by (constructor; assumption).
    apply (proj1 (Forall_forall _ _) Hall). apply (eq_ind _ (fun l => In (assign ord (q :: idx) (fun _ => 0) y) l) (in_map _ _ _ Hy) _ Em).
Qed.
End Base.
End Weyl.
