(** Derivatives and negations of labelled tensors, and invalid formulas. *)
From Verif Require Import Alg Alg_P Arr Arr_P Spec UtilsM Utils_P Arr2_P TensorM WorldM SpecWorld World_P Registry_P History_P CalcM SpecCalc Keep_P Calc_P Calc2_P.
Local Open Scope nat_scope.

Section Calc3.
Context {A : AlgOps}.

Lemma kept_coords w w' c oc : kept w w' -> cls_of w c = Some CCoordinates -> obj_of w c = Some oc ->
  exists oc', obj_of w' c = Some oc' /\ o_syms oc' = o_syms oc /\ o_comps oc' = o_comps oc.
Proof.
  intros H Hc Ho. destruct (kept_obj _ _ _ _ H Ho) as (o' & Ho' & Hs & Hx). exists o'. split; [exact Ho'|].
  split; [apply Hs|apply Hx, Hc].
Qed.
Lemma coord_symbols_ok w c n oc : coordinate_system w c n -> obj_of w c = Some oc -> coord_symbols c w = (Ok (o_syms oc), w).
Proof.
  intros (_ & o & d & x & Ho & Hd & Hx & _) Hoc. unfold coord_symbols. rewrite (bind_ok _ _ oc w w) by (apply getobj_ok, Hoc).
  rewrite (bind_ok _ _ x w w); [reflexivity|]. apply coord_components_spec. exists o, d. auto.
Qed.

(** The symbols after a derivative. *)
Lemma shared_fresh_l a s : ~ In a s -> shared [a] s = [].
Proof.
  intros H. unfold shared. cbn [flat_map]. apply spos_none in H. rewrite H. destruct (spos a [a]); reflexivity.
Qed.
Lemma shared_one a s p : spos a s = Some p -> shared [a] s = [(a, (0, p))].
Proof. intros H. unfold shared. cbn [flat_map]. rewrite H. unfold spos. cbn [index_of]. rewrite String.eqb_refl. reflexivity. Qed.
Lemma without_one a s : ~ In a s -> without [a] s = [a].
Proof. intros H. rewrite without_eq. cbn [filter]. apply smem_out in H. rewrite H. reflexivity. Qed.
Lemma without_one' a s : In a s -> without [a] s = [].
Proof. intros H. rewrite without_eq. cbn [filter]. apply smem_in in H. rewrite H. reflexivity. Qed.
Lemma without_fresh a s : ~ In a s -> without s [a] = s.
Proof.
  intros H. rewrite without_eq. induction s as [|x s IH]; [reflexivity|]. cbn [filter].
  assert (E : smem x [a] = false). { apply smem_out. cbn. intros [->|[]]. apply H; left; reflexivity. }
  rewrite E. cbn [negb]. rewrite IH; [reflexivity|]. intros C. apply H. right; exact C.
Qed.
Lemma indices_without_fresh a s i : length i = length s -> ~ In a s -> indices_without s i [a] = i.
Proof.
  rewrite indices_without_eq. revert i. induction s as [|x s IH]; intros [|z i] Hl H; cbn in Hl; try discriminate; [reflexivity|].
  cbn [combine filter fst]. assert (E : smem x [a] = false). { apply smem_out. cbn. intros [->|[]]. apply H; left; reflexivity. }
  rewrite E. cbn [negb map snd]. f_equal. apply IH; [lia|]. intros C. apply H. right; exact C.
Qed.

Context {L : AlgLaws A}.
Context {D : DiffLaws A}.

Lemma gradient_run w a y t o m c n oc b w1 :
  typed w -> labelled w y t o -> 1 <= n -> ~ In a (c_syms y) ->
  o_metric o = Some m -> o_coords o = Some c -> coordinate_system w c n -> obj_of w c = Some oc -> length (o_syms oc) = n ->
  get_components t (Some c) (Some (o_indices o)) w = (Ok b, w1) -> cubic n b -> rank b = o_rank o ->
  exists r, matmul0 (mkCalc None [a] RPartial) y w = (Ok (new_calc w1 (a :: c_syms y)), fresh_world w1 CTensor (tobj "TEMP" "T" (-1 :: o_indices o)%Z c m r)) /\
    cubic n r /\ rank r = S (length (o_indices o)) /\
    forall f, (forall s, In s (a :: c_syms y) -> f s < n) ->
      keq (aget r (map f (a :: c_syms y))) (kdiff (nth (f a) (o_syms oc) ""%string) (aget b (map f (c_syms y)))).
Proof.
  intros Hty (Ry & Ty & Oy & Ny & Ly & Ky & Vy) Hn Na Mo Co Hc Hoc Hl G Hb Hrb.
  assert (Hw1 : kept w w1) by (eapply get_components_kept; [exact Hty|exact G]).
  destruct (gradient_spec n (o_syms oc) b Hn Hl Hb) as (r & Er & Wr & Sr & Vr).
  assert (Hrr : rank r = S (length (o_indices o))) by (unfold rank; rewrite Sr, repeat_length; congruence).
  assert (Hr : cubic n r) by (split; [exact Wr|rewrite Sr, Hrr; congruence]).
  exists r. split; [|split; [exact Hr|split; [exact Hrr|]]].
  - unfold matmul0. cbn [c_role c_syms]. rewrite Ry. rewrite (bind_ok _ _ t w w) by (unfold tensor_of; rewrite Ty; reflexivity).
    unfold partial_product. cbv zeta. rewrite (shared_fresh_l _ _ Na).
    rewrite (bind_ok _ _ o w w) by (apply getobj_ok, Oy). rewrite (bind_ok _ _ (o_indices o) w w) by reflexivity.
    rewrite Co. rewrite (bind_ok _ _ b w w1) by exact G. rewrite (bind_ok _ _ c w1 w1) by reflexivity.
    destruct (kept_coords _ _ _ _ Hw1 (proj1 Hc) Hoc) as (oc' & Hoc' & Hs & _).
    rewrite (bind_ok _ _ (o_syms oc) w1 w1).
    2:{ rewrite <- Hs. apply (coord_symbols_ok _ _ n); [eapply kept_system; eauto|exact Hoc']. }
    rewrite (bind_ok _ _ r w1 w1) by (apply mlift_ok, Er).
    rewrite (select_without (o_indices o) (c_syms y) [a]) by (intros; apply smem_free2; assumption).
    rewrite (indices_without_fresh _ _ _ (eq_sym Ly) Na), Mo.
    assert (Ef : free_symbols [a] (c_syms y) = a :: c_syms y) by (rewrite free_split, without_one, without_fresh by assumption; reflexivity).
    rewrite Ef. apply (make_calc w1 "TEMP" r m c _ "T" n); try assumption.
    + destruct Hw1 as (_ & _ & H & _). rewrite H. destruct (Hty t o Oy) as [H1 _]. apply H1, Mo.
    + eapply kept_system; eauto.
    + constructor; [auto|exact Vy].
    + rewrite Hrr. reflexivity.
    + constructor; assumption.
  - intros f Hf. cbn [map]. apply Vr; [apply Hf; left; reflexivity|].
    split; [rewrite map_length; congruence|]. apply Forall_forall. intros k Hk. apply in_map_iff in Hk as (x & <- & Hx). apply Hf. right; exact Hx.
Qed.

Lemma set_nth_valid p i : valid_cfg i -> valid_cfg (set_nth p 1%Z i).
Proof.
  unfold valid_cfg. revert p. induction i as [|z i IH]; intros [|p] H; cbn; inversion H; subst; constructor; auto.
Qed.

Lemma divergence_run w a y t o m c n oc p b w1 :
  typed w -> labelled w y t o -> 1 <= n -> nth_error (c_syms y) p = Some a -> p <= 1 ->
  o_metric o = Some m -> o_coords o = Some c -> coordinate_system w c n -> obj_of w c = Some oc -> length (o_syms oc) = n ->
  get_components t (Some c) (Some (set_nth p 1%Z (o_indices o))) w = (Ok b, w1) -> cubic n b -> rank b = o_rank o ->
  let i := indices_without (c_syms y) (o_indices o) [a] in
  exists r, matmul0 (mkCalc None [a] RPartial) y w =
      (Ok (new_calc w1 (without (c_syms y) [a])), fresh_world w1 CTensor (tobj "TEMP" "T" i c m r)) /\
    cubic n r /\ rank r = length i /\
    forall f, (forall s, In s (without (c_syms y) [a]) -> f s < n) ->
      keq (aget r (map f (without (c_syms y) [a])))
          (nsum n (fun k => kdiff (nth k (o_syms oc) ""%string) (aget b (map (assign [a] [k] f) (c_syms y))))).
Proof.
  intros Hty (Ry & Ty & Oy & Ny & Ly & Ky & Vy) Hn Hp Hp1 Mo Co Hc Hoc Hl G Hb Hrb i.
  assert (Hw1 : kept w w1) by (eapply get_components_kept; [exact Hty|exact G]).
  assert (Hlt : p < length (c_syms y)) by (apply nth_error_Some; congruence).
  assert (Hin : In a (c_syms y)) by (eapply nth_error_In; eauto).
  assert (Hs : spos a (c_syms y) = Some p) by (apply spos_nth; assumption).
  destruct (divergence_spec n (o_syms oc) b (Z.of_nat p) Hn Hl Hb) as (r & Er & Wr & Sr & Vr); [lia|lia|].
  rewrite Nat2Z.id in Vr.
  assert (Lw : length (without (c_syms y) [a]) + 1 = length (c_syms y)).
  { apply (without_length (c_syms y) [a]); [exact Ny|repeat constructor; intros []|]. intros x [<-|[]]. exact Hin. }
  assert (Li : length i = length (without (c_syms y) [a])) by (apply indices_without_length; congruence).
  assert (Hrr : rank r = length i) by (unfold rank; rewrite Sr, repeat_length; lia).
  assert (Hr : cubic n r) by (split; [exact Wr|rewrite Sr, Hrr; f_equal; lia]).
  exists r. split; [|split; [exact Hr|split; [exact Hrr|]]].
  - unfold matmul0. cbn [c_role c_syms]. rewrite Ry. rewrite (bind_ok _ _ t w w) by (unfold tensor_of; rewrite Ty; reflexivity).
    unfold partial_product. cbv zeta. rewrite (shared_one _ _ _ Hs). cbn [snd].
    rewrite (bind_ok _ _ o w w) by (apply getobj_ok, Oy).
    rewrite (bind_ok _ _ (set_nth p 1%Z (o_indices o)) w w).
    2:{ unfold mset. destruct (Nat.ltb_spec p (length (o_indices o))); [reflexivity|lia]. }
    rewrite Co. rewrite (bind_ok _ _ b w w1) by exact G. rewrite (bind_ok _ _ c w1 w1) by reflexivity.
    destruct (kept_coords _ _ _ _ Hw1 (proj1 Hc) Hoc) as (oc' & Hoc' & Es & _).
    rewrite (bind_ok _ _ (o_syms oc) w1 w1).
    2:{ rewrite <- Es. apply (coord_symbols_ok _ _ n); [eapply kept_system; eauto|exact Hoc']. }
    rewrite (bind_ok _ _ r w1 w1) by (apply mlift_ok, Er).
    rewrite (select_without (o_indices o) (c_syms y) [a]) by (intros; apply smem_free2; assumption). fold i. rewrite Mo.
    assert (Ef : free_symbols [a] (c_syms y) = without (c_syms y) [a]) by (rewrite free_split, without_one' by assumption; reflexivity).
    rewrite Ef. apply (make_calc w1 "TEMP" r m c _ "T" n); try assumption.
    + destruct Hw1 as (_ & _ & H & _). rewrite H. destruct (Hty t o Oy) as [H1 _]. apply H1, Mo.
    + eapply kept_system; eauto.
    + apply indices_without_valid, Vy.
    + symmetry; exact Hrr.
    + apply filter_nodup, Ny.
  - intros f Hf. rewrite Vr.
    + apply nsum_ext. intros k _. rewrite <- (place_one (rank b) p k) by (rewrite ?map_length; lia).
      assert (Q := place_assign (c_syms y) [a] [p] [k] f Ny). rewrite <- Q by (constructor; [exact Hs|constructor]).
      replace (length (c_syms y)) with (rank b) by congruence. reflexivity.
    + split; [rewrite map_length; lia|]. apply Forall_forall. intros k Hk. apply in_map_iff in Hk as (x & <- & Hx). apply Hf, Hx.
Qed.

Lemma divergence_high_run w a y t o c n oc p b w1 :
  typed w -> labelled w y t o -> nth_error (c_syms y) p = Some a -> 2 <= p ->
  o_coords o = Some c -> coordinate_system w c n -> obj_of w c = Some oc ->
  get_components t (Some c) (Some (set_nth p 1%Z (o_indices o))) w = (Ok b, w1) ->
  matmul (mkCalc None [a] RPartial) y w = (Err EValueError, w1).
Proof.
  intros Hty (Ry & Ty & Oy & Ny & Ly & Ky & Vy) Hp Hp1 Co Hc Hoc G.
  assert (Hw1 : kept w w1) by (eapply get_components_kept; [exact Hty|exact G]).
  assert (Hlt : p < length (c_syms y)) by (apply nth_error_Some; congruence).
  assert (Hs : spos a (c_syms y) = Some p) by (apply spos_nth; assumption).
  unfold matmul, matmul_with, matmul0. cbn [c_role c_syms]. rewrite Ry. rewrite (bind_ok _ _ t w w) by (unfold tensor_of; rewrite Ty; reflexivity).
  unfold partial_product. cbv zeta. rewrite (shared_one _ _ _ Hs). cbn [snd].
  rewrite (bind_ok _ _ o w w) by (apply getobj_ok, Oy).
  rewrite (bind_ok _ _ (set_nth p 1%Z (o_indices o)) w w).
  2:{ unfold mset. destruct (Nat.ltb_spec p (length (o_indices o))); [reflexivity|lia]. }
  rewrite Co. rewrite (bind_ok _ _ b w w1) by exact G. rewrite (bind_ok _ _ c w1 w1) by reflexivity.
  destruct (kept_coords _ _ _ _ Hw1 (proj1 Hc) Hoc) as (oc' & Hoc' & Es & _).
  rewrite (bind_ok _ _ (o_syms oc) w1 w1).
  2:{ rewrite <- Es. apply (coord_symbols_ok _ _ n); [eapply kept_system; eauto|exact Hoc']. }
  rewrite divergence_high by lia. reflexivity.
Qed.

(** *** Negation, difference, multiples *)
Lemma default_run w t o c d a : obj_of w t = Some o -> o_coords o = Some c -> dget Nat.eqb c (o_comps o) = Some d ->
  dget cfg_eqb (o_indices o) d = Some a -> default_components t w = (Ok a, w).
Proof.
  intros Ho Hc Hd Ha. unfold default_components. rewrite (bind_ok _ _ o w w) by (apply getobj_ok, Ho).
  rewrite Hc. rewrite (bind_ok _ _ c w w) by reflexivity. unfold lookup.
  rewrite (bind_ok _ _ o w w) by (apply getobj_ok, Ho). rewrite Hd. rewrite (bind_ok _ _ d w w) by reflexivity.
  apply mopt_ok, Ha.
Qed.

Lemma stored_default_run w t o c a : obj_of w t = Some o -> stored_default o c a -> default_components t w = (Ok a, w).
Proof. intros Ho (Hc & d & Hd & Ha). eapply default_run; eauto. Qed.
Lemma stored_default_get w t k o c a : cls_of w t = Some k -> k <> CCoordinates -> obj_of w t = Some o -> stored_default o c a ->
  cls_of w c = Some CCoordinates -> valid_cfg (o_indices o) -> length (o_indices o) = o_rank o ->
  get_components t (Some c) (Some (o_indices o)) w = (Ok a, w).
Proof. intros Hk Nk Ho (Hc & d & Hd & Ha) Cc V Hr. eapply get_stored; eauto. Qed.
Lemma tobj_stored name sy i c m a : stored_default (tobj name sy i c m a) c a.
Proof.
  split; [reflexivity|]. exists [(i, a)]. cbn [tobj o_comps o_indices dget]. rewrite Nat.eqb_refl, cfg_eqb_refl. auto.
Qed.

Lemma neg_run w x t o m c n a : typed w -> labelled w x t o -> stored_default o c a -> o_metric o = Some m -> coordinate_system w c n ->
  cubic n a -> rank a = o_rank o -> is_expr o c = false ->
  calc_neg x w = (Ok (new_calc w (c_syms x)), fresh_world w CTensor (tobj "TEMP" "T" (o_indices o) c m (amap kopp a))).
Proof.
  intros Hty (Rx & Tx & Ox & Nx & Lx & Kx & Vx) Hs Mo Hc Ha Hr He. unfold calc_neg. rewrite Rx. cbn [is_tensor_role negb].
  rewrite (bind_ok _ _ t w w) by (unfold tensor_of; rewrite Tx; reflexivity).
  rewrite (bind_ok _ _ a w w) by (eapply stored_default_run; eauto).
  rewrite (bind_ok _ _ o w w) by (apply getobj_ok, Ox). destruct Hs as [Hco _].
  rewrite (bind_ok _ _ tt w w) by (unfold need_components; rewrite Hco, He; reflexivity). rewrite Mo, Hco.
  destruct (amap_values n kopp a Ha) as (H1 & H2 & _).
  apply (make_calc w "TEMP" (amap kopp a) m c _ "T" n); try assumption; [|congruence].
  destruct (Hty t o Ox) as [H _]. apply H, Mo.
Qed.

Lemma scale_run w x k t o m c n a : typed w -> labelled w x t o -> stored_default o c a -> o_metric o = Some m -> coordinate_system w c n ->
  cubic n a -> rank a = o_rank o ->
  calc_mul x (OScalar k) w = (Ok (new_calc w (c_syms x)), fresh_world w CTensor (tobj "TEMP" "T" (o_indices o) c m (amap (kmul k) a))).
Proof.
  intros Hty (Rx & Tx & Ox & Nx & Lx & Kx & Vx) Hs Mo Hc Ha Hr. unfold calc_mul. rewrite Rx. cbn [is_tensor_role negb].
  rewrite (bind_ok _ _ t w w) by (unfold tensor_of; rewrite Tx; reflexivity).
  rewrite (bind_ok _ _ a w w) by (eapply stored_default_run; eauto).
  rewrite (bind_ok _ _ o w w) by (apply getobj_ok, Ox). destruct Hs as [Hco _]. rewrite Mo, Hco.
  destruct (amap_values n (kmul k) a Ha) as (H1 & H2 & _).
  apply (make_calc w "TEMP" (amap (kmul k) a) m c _ "T" n); try assumption; [|congruence].
  destruct (Hty t o Ox) as [H _]. apply H, Mo.
Qed.

(** The new tensor of a formula, as an operand. *)
Lemma new_labelled w s i c m a : NoDup s -> length s = length i -> valid_cfg i ->
  labelled (fresh_world w CTensor (tobj "TEMP" "T" i c m a)) (new_calc w s) (length (heap w)) (tobj "TEMP" "T" i c m a).
Proof.
  intros Hs Hl V. split; [reflexivity|]. split; [reflexivity|]. split; [apply obj_fresh_new|]. cbn [c_syms new_calc tobj o_indices o_rank].
  auto.
Qed.
Lemma labelled_fresh w k o0 x t o : labelled w x t o -> labelled (fresh_world w k o0) x t o.
Proof. intros (H1 & H2 & H3 & H4). split; [exact H1|]. split; [exact H2|]. split; [apply obj_fresh_old, H3|exact H4]. Qed.
End Calc3.
