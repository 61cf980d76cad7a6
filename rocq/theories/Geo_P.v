(** Consistent components: raising and lowering and coordinate changes keep them. *)
From Verif Require Import Alg Alg_P Arr Arr_P Spec UtilsM Arr2_P Act_P TensorM RL_P Jac_P Tensor_P Jacobian_P WorldM SpecWorld World_P.
Local Open Scope nat_scope.
Local Open Scope K_scope.

Section Geo.
Context {A : AlgOps} {L : AlgLaws A} {DL : DiffLaws A} {SL : SubsLaws A} {IL : InvLaws A}.
Variable g : geometry.
Hypothesis HC : consistent g.
Notation n := (g_n g).

Lemma in_range_inb r idx : in_range n r idx <-> inb (repeat n r) idx = true.
Proof. rewrite inb_rng. reflexivity. Qed.

Lemma holds_ext r a f f' : (forall idx, in_range n r idx -> f idx == f' idx) -> holds n r a f -> holds n r a f'.
Proof. intros H (C & R & G). split; [exact C|]. split; [exact R|]. intros idx Hi. rewrite <- (H idx Hi). apply G, Hi. Qed.

Lemma tab_holds r f : holds n r (tab (repeat n r) f) f.
Proof.
  split; [split; [apply awf_tab|unfold rank; cbn; rewrite repeat_length; reflexivity]|].
  split; [unfold rank; cbn; apply repeat_length|].
  intros idx Hi. rewrite aget_tab by (apply in_range_inb, Hi). reflexivity.
Qed.

Lemma holds_square a f : holds n 2 a f <-> square n a /\ meq n (mfun a) (fun i j => f [i; j]).
Proof.
  unfold holds. rewrite square_cubic. split.
  - intros (C & R & G). split; [auto|]. intros i j Hi Hj. apply G. split; [reflexivity|]. repeat constructor; assumption.
  - intros ((C & R) & G). split; [exact C|]. split; [exact R|]. intros idx [Hl Hf].
    destruct idx as [|i [|j [|k idx]]]; try discriminate. inversion Hf as [|? ? Hi Hf']; subst. inversion Hf' as [|? ? Hj _]; subst.
    apply G; assumption.
Qed.

Lemma sys_inv c : g_sys g c -> inverse_fun n (g_G g c) (g_Gi g c).
Proof. intros H. apply HC, H. Qed.

Lemma sys_gi_sym c : g_sys g c -> symmetric_fun n (g_Gi g c).
Proof.
  intros H. destruct HC as (_ & H1 & _). destruct (H1 c H) as (_ & Hinv & Hs).
  assert (Hinv' := inverse_tr n _ _ Hinv). apply inverse_fun_meq in Hinv as [I1 I2]. apply inverse_fun_meq in Hinv' as [T1 T2].
  apply (inverse_unique n (g_G g c)); [exact I2|]. eapply meq_trans; [|exact T1]. apply mcomp_ext; [exact Hs|apply meq_refl].
Qed.

(** The configurations of the metric. *)
Definition gcfg (c : oid) (i : list Z) : nat -> nat -> K :=
  match i with
  | [x; y] => if (x =? y)%Z then (if (x =? 1)%Z then g_Gi g c else g_G g c) else kdelta
  | _ => kdelta
  end.

Lemma metric_cfg c i : g_sys g c -> valid_cfg i -> length i = 2%nat ->
  meq n (fun p q => with_indices g c i (mat_comps (g_G g c)) [p; q]) (gcfg c i).
Proof.
  intros Hc Hv Hl. destruct i as [|x [|y [|z i]]]; try discriminate.
  inversion Hv as [|? ? Hx Hv']; subst. inversion Hv' as [|? ? Hy _]; subst.
  pose proof (sys_gi_sym c Hc) as Sy. pose proof (sys_inv c Hc) as Iv. apply inverse_fun_meq in Iv as [I1 I2].
  unfold with_indices. cbn [map]. eapply meq_trans; [apply act2_mcomp|].
  change (fun k l : nat => mat_comps (g_G g c) [k; l]) with (g_G g c).
  destruct Hx as [-> | ->], Hy as [-> | ->]; cbn [conv gcfg Z.eqb Pos.eqb].
  - eapply meq_trans; [apply meq_sym, mcomp_assoc|].
    eapply meq_trans; [apply mcomp_ext; [exact I2|apply meq_refl]|].
    eapply meq_trans; [apply mcomp_delta_l|]. intros i j Hi Hj. apply Sy; assumption.
  - eapply meq_trans; [apply mcomp_ext; [apply meq_refl|apply mcomp_ext; [apply meq_refl|apply kdelta_tr]]|].
    eapply meq_trans; [apply mcomp_ext; [apply meq_refl|apply mcomp_delta_r]|]. exact I2.
  - eapply meq_trans; [apply mcomp_delta_l|].
    eapply meq_trans; [apply mcomp_ext; [apply meq_refl|]|exact I1]. intros i j Hi Hj. apply Sy; assumption.
  - eapply meq_trans; [apply mcomp_delta_l|].
    eapply meq_trans; [apply mcomp_ext; [apply meq_refl|apply kdelta_tr]|]. apply mcomp_delta_r.
Qed.

Lemma metric_holds c i a : g_sys g c -> valid_cfg i -> length i = 2%nat ->
  (holds n 2 a (with_indices g c i (mat_comps (g_G g c))) <-> square n a /\ meq n (mfun a) (gcfg c i)).
Proof.
  intros Hc Hv Hl. rewrite holds_square. pose proof (metric_cfg c i Hc Hv Hl) as H. split.
  - intros [S G]. split; [exact S|]. eapply meq_trans; [exact G|exact H].
  - intros [S G]. split; [exact S|]. eapply meq_trans; [exact G|apply meq_sym, H].
Qed.

(** All indices down. *)
Definition down (r : nat) : list Z := repeat (-1)%Z r.
Lemma down_valid r : valid_cfg (down r).
Proof. apply Forall_forall. intros z Hz. apply repeat_spec in Hz. auto. Qed.
Lemma down_length r : length (down r) = r.
Proof. apply repeat_length. Qed.

Lemma with_down c r f idx : in_range n r idx -> with_indices g c (down r) f idx == f idx.
Proof.
  intros [Hl Hr]. unfold with_indices. apply act_id; [rewrite map_length, down_length; congruence|exact Hr|].
  apply Forall_forall. intros M HM. apply in_map_iff in HM as (z & <- & Hz). apply repeat_spec in Hz. subst z.
  cbn. apply meq_refl.
Qed.

Lemma conv_down r i (Ga Gb : nat -> nat -> K) : length i = r ->
  map (fun st => conv Ga Gb (fst st) (snd st)) (combine (down r) i) = map (conv Ga Gb (-1)) i.
Proof.
  intros <-. unfold down. induction i as [|z i IH]; [reflexivity|]. cbn [length repeat combine map]. rewrite IH. reflexivity.
Qed.

Lemma conv_meq Ga Ga' Gb Gb' s t : meq n Ga Ga' -> meq n Gb Gb' -> meq n (conv Ga Gb s t) (conv Ga' Gb' s t).
Proof. intros H1 H2. unfold conv. destruct (s =? t)%Z; [apply meq_refl|]. destruct (t =? 1)%Z; assumption. Qed.

Lemma act_conv_meq Ga Ga' Gb Gb' l f idx : meq n Ga Ga' -> meq n Gb Gb' -> length l = length idx -> rng n idx ->
  act n (map (fun st => conv Ga Gb (fst st) (snd st)) l) f idx == act n (map (fun st => conv Ga' Gb' (fst st) (snd st)) l) f idx.
Proof.
  intros H1 H2 Hl Hr. apply act_mext; [rewrite map_length; exact Hl|exact Hr|]. clear Hl.
  induction l as [|st l IH]; cbn; constructor; [apply conv_meq; assumption|exact IH].
Qed.

(** Raising and lowering. *)
Lemma raise_lower_holds r f c gg gi src tgt a :
  g_sys g c -> square n gg -> square n gi -> meq n (mfun gg) (g_G g c) -> meq n (mfun gi) (g_Gi g c) ->
  valid_cfg src -> length src = r -> valid_cfg tgt -> length tgt = r ->
  holds n r a (with_indices g c src f) ->
  exists b, raise_lower gg gi src tgt a = Ok b /\ holds n r b (with_indices g c tgt f).
Proof.
  intros Hc Sg Sgi Mg Mgi Vs Ls Vt Lt (Ca & Ra & Ga).
  assert (Hn : (1 <= n)%nat) by apply HC.
  destruct (raise_lower_spec n gg gi src tgt a Hn Sg Sgi Vs Vt Ca ltac:(lia) ltac:(lia)) as (b & E & W & Sb & Gb).
  exists b. split; [exact E|].
  assert (Hrb : rank b = r) by (unfold rank in *; rewrite Sb; exact Ra).
  split; [split; [exact W|rewrite Hrb, Sb, <- Ra; apply Ca]|]. split; [exact Hrb|].
  intros idx Hi. destruct Ca as [Wa Sa]. rewrite Sa, Ra in Gb.
  rewrite Gb by (apply in_range_inb, Hi). destruct Hi as [Hl Hr].
  rewrite (act_conv_meq _ (g_G g c) _ (g_Gi g c)); [|exact Mg|exact Mgi|rewrite combine_length; lia|exact Hr].
  rewrite (act_ext n _ (aget a) (with_indices g c src f)); [|rewrite map_length, combine_length; lia|exact Hr|].
  2:{ intros ks H1 H2. apply Ga. split; [lia|exact H2]. }
  unfold with_indices. rewrite act_comp by (rewrite map_length; try rewrite combine_length; lia).
  assert (Inv := sys_inv c Hc).
  apply act_mext; [repeat (rewrite map_length || rewrite combine_length); lia|exact Hr|].
  clear - L Inv Vs Vt Ls Lt. subst r. revert tgt Vt Lt.
  induction Vs as [|z src Hz Vs IH]; intros [|w tgt] Vt Hl; cbn in Hl; try discriminate; cbn; [constructor|].
  inversion Vt as [|w' t' Hw Vt' E]; subst. constructor; [|apply IH; [exact Vt'|lia]].
  cbn [fst snd]. apply conv_comp; auto.
Qed.

(** Coordinate change along a rule. *)
Lemma transform_holds r f f' c c' R J Ji C i a :
  g_sys g c -> dget Nat.eqb c' (g_rules g c) = Some R ->
  calculate_jacobian (g_syms g c) (g_syms g c') R = Ok (J, Ji, C) ->
  covariant_law g r c c' R f f' ->
  valid_cfg i -> length i = r -> holds n r a (with_indices g c i f) ->
  exists b, transform J Ji R r i a = Ok b /\ holds n r b (with_indices g c' i f').
Proof.
  intros Hc HR HJ Hlaw Vi Li (Ca & Ra & Ga).
  destruct HC as (Hn & H1 & H2). destruct (H2 c c' R Hc HR) as (Hc' & ND & _ & LawG).
  destruct (H1 c Hc) as (Lx & Ig & Sg). destruct (H1 c' Hc') as (Ly & Ig' & Sg').
  destruct (calculate_jacobian_spec n (g_syms g c) (g_syms g c') R Hn Lx Ly ND J Ji C HJ) as (SJ & SJi & _ & _ & IJ & GJ & _).
  (* arrays for the metric and for the covariant components *)
  set (gg := tab (repeat n 2) (mat_comps (g_G g c))). set (gi := tab (repeat n 2) (mat_comps (g_Gi g c))).
  set (gi' := tab (repeat n 2) (mat_comps (g_Gi g c'))). set (a0 := tab (repeat n r) f).
  assert (Hgg := tab_holds 2 (mat_comps (g_G g c))). assert (Hgi := tab_holds 2 (mat_comps (g_Gi g c))).
  assert (Hgi' := tab_holds 2 (mat_comps (g_Gi g c'))). assert (Ha0 := tab_holds r f).
  fold gg in Hgg. fold gi in Hgi. fold gi' in Hgi'. fold a0 in Ha0.
  apply holds_square in Hgg as [Sgg Mgg], Hgi as [Sgi Mgi], Hgi' as [Sgi' Mgi'].
  cbn [mat_comps] in Mgg, Mgi, Mgi'. change (meq n (mfun gg) (g_G g c)) in Mgg. change (meq n (mfun gi) (g_Gi g c)) in Mgi.
  change (meq n (mfun gi') (g_Gi g c')) in Mgi'.
  assert (Jm : meq n (mfun J) (jacobian_fun (g_syms g c) (g_syms g c') R)).
  { intros p q Hp Hq. apply GJ; assumption. }
  (* covariant components in the new coordinates *)
  assert (Law : forall r0 (h h' : list nat -> K) (x : arr), covariant_law g r0 c c' R h h' -> holds n r0 x h ->
     exists y, transform J Ji R r0 (down r0) x = Ok y /\ holds n r0 y h').
  { intros r0 h h' x Hl (Cx & Rx & Gx).
    destruct (transform_hom n J Ji R (down r0) x Cx SJ SJi (down_valid r0) ltac:(rewrite down_length; lia)) as (y & Ey & Wy & Sy & Gy & _).
    rewrite Rx in Ey. exists y. split; [exact Ey|].
    assert (Ry : rank y = r0) by (unfold rank in *; rewrite Sy; exact Rx).
    split; [split; [exact Wy|rewrite Ry, Sy, <- Rx; apply Cx]|]. split; [exact Ry|].
    intros idx Hi. destruct Cx as [Wx Sx]. rewrite Sx, Rx in Gy. rewrite Gy by (apply in_range_inb, Hi).
    rewrite (Hl idx Hi). destruct Hi as [Hli Hri]. apply (hom_proper _ (hom_subs_seq R)).
    rewrite (act_ext n _ (aget x) h); [|rewrite map_length, down_length; lia|exact Hri|].
    2:{ intros ks K1 K2. apply Gx. split; [lia|exact K2]. }
    apply act_mext; [rewrite map_length, down_length; lia|exact Hri|].
    clear - L Jm. unfold down. induction r0 as [|r0 IH]; cbn; constructor; [|exact IH].
    intros p q Hp Hq. apply Jm; assumption. }
  destruct (Law 2%nat _ _ gg LawG (tab_holds 2 _)) as (g' & Eg' & Hg').
  destruct (Law r _ _ a0 Hlaw Ha0) as (b0 & Eb0 & Hb0).
  apply holds_square in Hg' as [Sg2 Mg2]. change (meq n (mfun g') (g_G g c')) in Mg2.
  assert (Ig2 : inverse_fun n (mfun g') (mfun gi')).
  { eapply inverse_ext; [apply meq_sym; exact Mg2|apply meq_sym; exact Mgi'|exact Ig']. }
  assert (Igg : inverse_fun n (mfun gg) (mfun gi)).
  { eapply inverse_ext; [apply meq_sym; exact Mgg|apply meq_sym; exact Mgi|exact Ig]. }
  destruct Ha0 as (Ca0 & Ra0 & Ga0).
  destruct (transform_raise_lower n J Ji R gg gi g' gi' (down r) i a0 Hn SJ SJi Sgg Sgi Sgi' IJ Igg Eg' Ig2
     (down_valid r) Vi Ca0 ltac:(rewrite down_length; lia) ltac:(lia)) as (b & b1 & b' & b1' & Eb & Eb1 & Eb' & Eb1' & Q).
  rewrite Ra0 in Eb1, Eb'. assert (b' = b0) by congruence. subst b'.
  (* b1' *)
  destruct (raise_lower_holds r f' c' g' gi' (down r) i b0 Hc' Sg2 Sgi' Mg2 Mgi' (down_valid r) (down_length r) Vi Li) as (z & Ez & Hz).
  { eapply holds_ext; [|exact Hb0]. intros idx Hi. symmetry. apply with_down, Hi. }
  assert (z = b1') by congruence. subst z.
  (* b *)
  destruct (raise_lower_holds r f c gg gi (down r) i a0 Hc Sgg Sgi Mgg Mgi (down_valid r) (down_length r) Vi Li) as (z & Ez2 & Hz2).
  { split; [exact Ca0|]. split; [exact Ra0|]. intros idx Hi. rewrite (Ga0 idx Hi). symmetry. apply with_down, Hi. }
  assert (z = b) by congruence. subst z. clear Ez Ez2.
  destruct Hz2 as (Cb & Rb & Gb).
  destruct (transform_hom n J Ji R i b Cb SJ SJi Vi ltac:(lia)) as (y & Ey & Wy & Sy & Gy & _).
  rewrite Rb in Ey. assert (y = b1) by congruence. subst y.
  destruct (transform_hom n J Ji R i a Ca SJ SJi Vi ltac:(lia)) as (x & Ex & Wx & Sx & Gx & _).
  rewrite Ra in Ex. exists x. split; [exact Ex|].
  assert (Rx : rank x = r) by (unfold rank in *; rewrite Sx; exact Ra).
  split; [split; [exact Wx|rewrite Rx, Sx, <- Ra; apply Ca]|]. split; [exact Rx|].
  intros idx Hi. destruct Hz as (Cz & Rz & Gz). rewrite <- (Gz idx Hi).
  destruct Ca as [Wa Sa]. rewrite Sa, Ra in Gx. rewrite Gx by (apply in_range_inb, Hi).
  destruct Q as [Q1 Q2]. destruct Cb as [Wb Sb]. rewrite Sb, Rb in Gy.
  rewrite <- Q2 by (rewrite Sy, Sb, Rb; apply in_range_inb, Hi).
  rewrite Gy by (apply in_range_inb, Hi). apply (hom_proper _ (hom_subs_seq R)).
  destruct Hi as [Hli Hri]. apply act_ext; [rewrite map_length; lia|exact Hri|].
  intros ks K1 K2. rewrite Gb, Ga by (split; [lia|exact K2]). reflexivity.
Qed.

(** The inverse of a metric. *)
Lemma inverse_holds c i a b : g_sys g c -> i = [-1; -1]%Z \/ i = [1; 1]%Z ->
  holds n 2 a (with_indices g c i (mat_comps (g_G g c))) -> ainv a = Ok b ->
  holds n 2 b (with_indices g c (map Z.opp i) (mat_comps (g_G g c))).
Proof.
  intros Hc Hi Ha E.
  assert (V : valid_cfg i /\ length i = 2%nat /\ valid_cfg (map Z.opp i) /\ length (map Z.opp i) = 2%nat).
  { destruct Hi as [-> | ->]; repeat split; repeat (apply Forall_cons; [cbn; auto|]); apply Forall_nil. }
  destruct V as (V1 & V2 & V3 & V4). apply metric_holds in Ha as [Sa Ma]; auto. apply metric_holds; auto.
  destruct (ainv_spec n a b Sa E) as [Sb Ib]. split; [exact Sb|].
  assert (Iv := sys_inv c Hc). apply inverse_fun_meq in Iv as [I1 I2]. apply inverse_fun_meq in Ib as [B1 B2].
  destruct Hi as [-> | ->]; cbn in *.
  - apply (inverse_unique n (g_G g c)); [|exact I1].
    eapply meq_trans; [apply mcomp_ext; [apply meq_refl|apply meq_sym; exact Ma]|exact B2].
  - apply (inverse_unique n (g_Gi g c)); [|exact I2].
    eapply meq_trans; [apply mcomp_ext; [apply meq_refl|apply meq_sym; exact Ma]|exact B2].
Qed.

Lemma mixed_holds c i a : g_sys g c -> i = [1; -1]%Z \/ i = [-1; 1]%Z ->
  square n a -> meq n (mfun a) kdelta -> holds n 2 a (with_indices g c i (mat_comps (g_G g c))).
Proof.
  intros Hc Hi Sa Ma. apply metric_holds; [exact Hc| | |].
  - destruct Hi as [-> | ->]; repeat (apply Forall_cons; [auto|]); apply Forall_nil.
  - destruct Hi as [-> | ->]; reflexivity.
  - split; [exact Sa|]. destruct Hi as [-> | ->]; exact Ma.
Qed.

(** The dictionary of a metric after its first transformation, also after an error. *)
Lemma metric_fill_holds c dflt i x d r :
  g_sys g c -> dflt = [-1; -1]%Z \/ dflt = [1; 1]%Z -> valid_cfg i -> length i = 2%nat ->
  holds n 2 x (with_indices g c i (mat_comps (g_G g c))) ->
  metric_fill dflt i [(i, x)] = (d, r) ->
  forall k y, dget cfg_eqb k d = Some y -> valid_cfg k /\ length k = 2%nat /\ holds n 2 y (with_indices g c k (mat_comps (g_G g c))).
Proof.
  intros Hc Hd Vi Li Hx H.
  assert (One : forall k y, dget cfg_eqb k [(i, x)] = Some y -> valid_cfg k /\ length k = 2%nat /\ holds n 2 y (with_indices g c k (mat_comps (g_G g c)))).
  { intros k y. cbn. destruct (cfg_eqb k i) eqn:E; [|discriminate]. intros Hy. injection Hy as <-.
    apply cfg_eqb_spec in E.
    subst k. auto. }
  unfold metric_fill in H.
  destruct (dget cfg_eqb dflt [(i, x)]) as [gg|] eqn:Ed; [|injection H as <- _; exact One].
  assert (Ei : dflt = i /\ gg = x).
  { cbn in Ed. destruct (cfg_eqb dflt i) eqn:E; [|discriminate]. injection Ed as <-. split; [|reflexivity].
    apply cfg_eqb_spec, E. }
  destruct Ei as [<- ->].
  destruct (ainv x) as [gi|e] eqn:Eg; [|injection H as <- _; exact One].
  assert (Hgi := inverse_holds c dflt x gi Hc Hd Hx Eg).
  assert (Sx := Hx). apply metric_holds in Sx as [Sx Mx]; auto.
  destruct (ainv_spec n x gi Sx Eg) as [Sgi Igi]. apply inverse_fun_meq in Igi as [I1 I2].
  assert (Symx : symmetric_fun n (mfun x)).
  { intros p q Hp Hq. rewrite (Mx p q Hp Hq), (Mx q p Hq Hp). destruct Hd as [-> | ->]; cbn.
    - destruct HC as (_ & H1 & _). apply (H1 c Hc); assumption.
    - apply sys_gi_sym; assumption. }
  assert (Symi : symmetric_fun n (mfun gi)).
  { assert (T := inverse_tr n _ _ (proj2 (inverse_fun_meq n _ _) (conj I1 I2))). apply inverse_fun_meq in T as [T1 T2].
    apply (inverse_unique n (mfun x)); [exact I2|]. eapply meq_trans; [|exact T1]. apply mcomp_ext; [exact Symx|apply meq_refl]. }
  destruct (tcontract13 n gi x Sgi Sx) as (m1 & E1 & Sq1 & G1).
  destruct (tcontract02 n gi x Sgi Sx) as (m2 & E2 & Sq2 & G2).
  assert (D1 : meq n (mfun m1) kdelta).
  { eapply meq_trans; [exact G1|]. eapply meq_trans; [apply mcomp_ext; [apply meq_refl|apply meq_sym; exact Symx]|]. exact I2. }
  assert (D2 : meq n (mfun m2) kdelta).
  { eapply meq_trans; [exact G2|]. eapply meq_trans; [apply mcomp_ext; [apply meq_sym; exact Symi|apply meq_refl]|]. exact I2. }
  destruct Hd as [-> | ->]; cbn in H; rewrite E1 in H; cbn in H; rewrite E2 in H; cbn in H; injection H as <- _.
  all: intros k y Hy; cbn in Hy.
  all: repeat match type of Hy with (if ?b then _ else _) = _ => destruct b eqn:? end; try discriminate; injection Hy as <-.
  all: match goal with E : cfg_eqb _ _ = true |- _ => apply cfg_eqb_spec in E; subst k end.
  all: split; [repeat (apply Forall_cons; [auto|]); apply Forall_nil|]; split; [reflexivity|].
  all: try exact Hx; try exact Hgi; try (apply mixed_holds; auto).
Qed.

End Geo.
