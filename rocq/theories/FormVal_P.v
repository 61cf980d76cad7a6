(** The values of formulas. *)
From Coq Require Import Permutation Bool.
From Verif Require Import Alg Alg_P Arr Arr_P Spec UtilsM Utils_P Arr2_P Act_P RL_P Tensor_P TensorM WorldM SpecWorld CalcM SpecCalc Calc_P Calc2_P Trace_P CurvM SpecCurv SpecForm Along_P Label_P.
Local Open Scope K_scope.

Lemma index_of_spos (x : string) s : index_of String.eqb x s = spos x s.
Proof. reflexivity. Qed.
Lemma assign_self s f x : assign s (map f s) f x = f x.
Proof.
  unfold assign. destruct (index_of String.eqb x s) as [j|] eqn:E; [|reflexivity]. apply spos_some in E as [E _].
  rewrite (nth_map_lt f s j 0%nat ""%string) by (apply nth_error_Some; congruence). rewrite (nth_error_nth s j ""%string E). reflexivity.
Qed.

(** The entry of a configuration for a symbol *)
Definition zof (s : list string) (i : list Z) (y : string) : Z := match spos y s with Some j => nth j i 0%Z | None => 0%Z end.
Lemma zof_cons y s z i x : zof (y :: s) (z :: i) x = if String.eqb x y then z else zof s i x.
Proof.
  unfold zof, spos. cbn [index_of]. destruct (String.eqb_spec x y) as [->|N]; [reflexivity|]. destruct (index_of String.eqb x s) as [j|]; reflexivity.
Qed.
Lemma zof_map s i : NoDup s -> length i = length s -> map (zof s i) s = i.
Proof.
  revert i. induction s as [|y s IH]; intros [|z i] Nd Hl; cbn [length] in Hl; try discriminate; [reflexivity|]. inversion Nd as [|? ? Ny Nd']; subst.
  cbn [map]. rewrite zof_cons, String.eqb_refl. f_equal. transitivity (map (zof s i) s); [|apply IH; auto]. apply map_ext_in. intros x Hx.
  rewrite zof_cons. destruct (String.eqb_spec x y); [congruence|reflexivity].
Qed.
Lemma zof_valid s i y : valid_cfg i -> length i = length s -> In y s -> zof s i y = 1%Z \/ zof s i y = (-1)%Z.
Proof.
  intros V Hl Hy. unfold zof. destruct (spos_in y s Hy) as (j & E & Hj). rewrite E. unfold valid_cfg in V. rewrite Forall_forall in V. apply V. apply nth_In. congruence.
Qed.
Lemma combine_zof {X} (h : Z -> X) s i : NoDup s -> length i = length s -> combine s (map h i) = map (fun y => (y, h (zof s i y))) s.
Proof.
  revert i. induction s as [|y s IH]; intros [|z i] Nd Hl; cbn [length] in Hl; try discriminate; [reflexivity|]. inversion Nd as [|? ? Ny Nd']; subst.
  cbn [map combine]. rewrite zof_cons, String.eqb_refl. f_equal. rewrite IH by auto. apply map_ext_in. intros x Hx.
  rewrite zof_cons. destruct (String.eqb_spec x y); [congruence|reflexivity].
Qed.
Lemma zof_without s i s' : NoDup s -> length i = length s -> indices_without s i s' = map (zof s i) (without s s').
Proof.
  revert i. induction s as [|y s IH]; intros [|z i] Nd Hl; cbn [length] in Hl; try discriminate; [reflexivity|]. inversion Nd as [|? ? Ny Nd']; subst.
  unfold indices_without, without in *. cbn [combine filter fst].
  assert (E : map (zof (y :: s) (z :: i)) (filter (fun x => negb (existsb (String.eqb x) s')) s) = map (zof s i) (filter (fun x => negb (existsb (String.eqb x) s')) s)).
  { apply map_ext_in. intros x Hx. apply filter_In in Hx as [Hx _]. rewrite zof_cons. destruct (String.eqb_spec x y); [congruence|reflexivity]. }
  destruct (negb (existsb (String.eqb y) s')); cbn [map snd]; rewrite IH by auto; rewrite E; [|reflexivity]. rewrite zof_cons, String.eqb_refl. reflexivity.
Qed.
Lemma without_nodup s s' : NoDup s -> NoDup (without s s').
Proof. apply filter_nodup. Qed.
Lemma common_nodup s s' : NoDup s -> NoDup (common s s').
Proof. apply filter_nodup. Qed.

Section Values.
Context {A : AlgOps} {L : AlgLaws A}.
Add Ring Kring : kring (setoid keq_equiv kring_ext).
Variables (n : nat) (g gi : nat -> nat -> K).
Notation mat := (nat -> nat -> K).
Notation pure1 := (pure (X := string)).
Notation pure2 := (pure (X := lab)).
Notation alongs1 := (alongs n String.eqb).
Notation alongs2 := (alongs n leqb).
Notation con2 := (con n leqb).
Notation cv := (conv g gi (-1)%Z).
Notation lifts := (lifted n).

Lemma lifted_alongs s Ms F f : NoDup s -> length Ms = length s -> pure1 F -> ok n f -> lifts s Ms F f == alongs1 (combine s Ms) F f.
Proof.
  intros Nd Hl P Of. unfold lifted. rewrite (act_alongs n String.eqb String.eqb_spec) by assumption.
  apply (alongs_ext n String.eqb String.eqb_spec); [exact Of|]. intros h Oh Eh. apply P. intros x _.
  assert (Hf : map fst (combine s Ms) = s). { clear - Hl. revert Ms Hl. induction s as [|y s IH]; intros [|M Ms] Hl; cbn in *; try discriminate; [reflexivity|]. rewrite IH by lia. reflexivity. }
  rewrite Hf in Eh. unfold assign. destruct (index_of String.eqb x s) as [j|] eqn:E.
  - apply spos_some in E as [E _]. rewrite (nth_map_lt h s j 0%nat ""%string) by (apply nth_error_Some; congruence). rewrite (nth_error_nth s j ""%string E). reflexivity.
  - symmetry. apply Eh. apply spos_none. exact E.
Qed.
Lemma lifted_pure s Ms F : NoDup s -> length Ms = length s -> pure1 F -> pure1 (lifts s Ms F).
Proof.
  intros Nd Hl P f h E. unfold lifted. rewrite (map_ext f h) by (intros x; apply E; exact I). unfold act. apply lsum_ext. intros ks _. apply kmul_proper; [reflexivity|].
  apply P. intros x _. unfold assign. destruct (index_of String.eqb x s); [reflexivity|]. apply E, I.
Qed.

Lemma alongs_prod {X} (eqb : X -> X -> bool) (es : forall a b, reflect (a = b) (eqb a b)) l1 l2 P Q f : ok n f ->
  dep (fun x => ~ In x (map fst l2)) P -> dep (fun x => ~ In x (map fst l1)) Q -> (forall x, In x (map fst l2) -> ~ In x (map fst l1)) ->
  alongs n eqb l1 P f * alongs n eqb l2 Q f == alongs n eqb (l1 ++ l2) (fun h => P h * Q h) f.
Proof.
  intros Of DP DQ Hd. rewrite (alongs_app n eqb). rewrite <- (alongs_factor n eqb es l1 P (alongs n eqb l2 Q) f).
  - apply (alongs_eqn n eqb es); [exact Of|]. intros h Oh. symmetry. transitivity (alongs n eqb l2 (fun h => Q h * P h) h).
    { apply (alongs_eqn n eqb es); [exact Oh|]. intros h' _. ring. }
    rewrite (alongs_factor n eqb es l2 Q P h DP). ring.
  - apply (alongs_dep n eqb); [exact Hd|exact DQ].
Qed.

(** The matrix that contracts two indices in the configurations z0 and z1 *)
Definition gmat (z0 z1 : Z) : mat := if (z0 =? z1)%Z then (if (z0 =? 1)%Z then g else gi) else kdelta.
Hypothesis Hsy : symmetric_fun n g.
Hypothesis Hin : inverse_fun n g gi.

Lemma gi_sym p q : (p < n)%nat -> (q < n)%nat -> gi p q == gi q p.
Proof.
  destruct Hin as [I1 I2]. intros Hp Hq.
  transitivity (nsum n (fun k => nsum n (fun l => gi p k * g k l * gi q l))).
  - transitivity (nsum n (fun k => gi p k * kdelta k q)); [rewrite nsum_delta_r by exact Hq; reflexivity|]. apply nsum_ext. intros k Hk.
    transitivity (gi p k * nsum n (fun l => gi q l * g l k)).
    + rewrite (I2 q k Hq Hk). unfold kdelta. rewrite Nat.eqb_sym. reflexivity.
    + rewrite <- nsum_scale. apply nsum_ext. intros l Hl. rewrite (Hsy l k Hl Hk). ring.
  - rewrite nsum_swap. transitivity (nsum n (fun l => kdelta p l * gi q l)); [|rewrite nsum_delta_l by exact Hp; reflexivity]. apply nsum_ext. intros l Hl.
    rewrite (nsum_scale_r n (gi q l)). rewrite (I2 p l Hp Hl). reflexivity.
Qed.
Lemma pair_metric (N : mat) z0 z1 p q : (z0 = 1 \/ z0 = -1)%Z -> (z1 = 1 \/ z1 = -1)%Z ->
  (forall k l, (k < n)%nat -> (l < n)%nat -> N k l == gmat z0 z1 k l) -> (p < n)%nat -> (q < n)%nat ->
  nsum n (fun k => nsum n (fun l => N k l * (cv z0 k p * cv z1 l q))) == gi p q.
Proof.
  intros H0 H1 HN Hp Hq. destruct Hin as [I1 I2].
  transitivity (nsum n (fun k => nsum n (fun l => gmat z0 z1 k l * (cv z0 k p * cv z1 l q)))).
  { apply nsum_ext. intros k Hk. apply nsum_ext. intros l Hl. rewrite (HN k l Hk Hl). reflexivity. }
  destruct H0 as [-> | ->], H1 as [-> | ->]; unfold gmat, conv; cbn [Z.eqb Pos.eqb].
  - transitivity (nsum n (fun k => gi k p * kdelta k q)).
    + apply nsum_ext. intros k Hk. rewrite <- (I1 k q Hk Hq). rewrite <- nsum_scale. apply nsum_ext. intros l _. ring.
    + rewrite nsum_delta_r by exact Hq. apply gi_sym; assumption.
  - transitivity (nsum n (fun k => kdelta k q * gi k p)).
    + apply nsum_ext. intros k Hk. rewrite nsum_delta_l by exact Hk. ring.
    + rewrite nsum_delta_l' by exact Hq. apply gi_sym; assumption.
  - transitivity (nsum n (fun k => kdelta k p * gi k q)).
    + apply nsum_ext. intros k Hk. rewrite nsum_delta_l by exact Hk. ring.
    + rewrite nsum_delta_l' by exact Hp. reflexivity.
  - transitivity (nsum n (fun k => kdelta k p * gi k q)).
    + apply nsum_ext. intros k Hk. transitivity (nsum n (fun l => kdelta k p * gi k l * kdelta l q)); [apply nsum_ext; intros l _; ring|]. rewrite nsum_delta_r by exact Hq. reflexivity.
    + rewrite nsum_delta_l' by exact Hp. reflexivity.
Qed.

(** *** Products *)
Lemma product_general s1 s2 V1 V2 (Mof : lab -> mat) (Nof Pof : mat) f : NoDup s1 -> NoDup s2 ->
  dep (fun x => In x s1) V1 -> dep (fun x => In x s2) V2 -> ok n f ->
  let C := common s1 s2 in
  (forall y p q, In y C -> (p < n)%nat -> (q < n)%nat -> nsum n (fun k => nsum n (fun l => Nof k l * (Mof (false, y) k p * Mof (true, y) l q))) == Pof p q) ->
  con2 (twins (fun _ => Nof) C) (fun h => alongs1 (map (fun y => (y, Mof (false, y))) s1) V1 (part false h) * alongs1 (map (fun y => (y, Mof (true, y))) s2) V2 (part true h)) (join f f) ==
  alongs1 (map (fun y => (y, Mof (false, y))) (without s1 s2) ++ map (fun y => (y, Mof (true, y))) (without s2 s1))
    (fun f => contracted n Pof C (fun f1 f2 => V1 f1 * V2 f2) f f) f.
Proof.
  intros N1 N2 D1 D2 Of C HN.
  set (labs := map (Datatypes.pair false) s1 ++ map (Datatypes.pair true) s2). set (rest := map (Datatypes.pair false) (without s1 s2) ++ map (Datatypes.pair true) (without s2 s1)).
  set (F := fun h : lab -> nat => V1 (part false h) * V2 (part true h)).
  assert (DF : dep (fun a => In a labs) F).
  { intros h h' E. unfold F. rewrite (D1 (part false h) (part false h')), (D2 (part true h) (part true h')); [reflexivity| |]; intros x Hx; apply E; unfold labs; apply in_or_app;
      [right|left]; apply in_map; exact Hx. }
  assert (Il : forall b y, In (b, y) labs <-> if b then In y s2 else In y s1).
  { intros b y. unfold labs. rewrite in_app_iff, !in_map_iff. destruct b; split.
    - intros [(z & E & _)|(z & E & H)]; [discriminate E|injection E as <-; exact H].
    - intros H. right. exists y. auto.
    - intros [(z & E & H)|(z & E & _)]; [injection E as <-; exact H|discriminate E].
    - intros H. left. exists y. auto. }
  assert (Ir : forall b y, In (b, y) rest <-> if b then In y s2 /\ ~ In y s1 else In y s1 /\ ~ In y s2).
  { intros b y. unfold rest. rewrite in_app_iff, !in_map_iff. destruct b; split.
    - intros [(z & E & _)|(z & E & H)]; [discriminate E|injection E as <-; apply without_in, H].
    - intros H. right. exists y. split; [reflexivity|apply without_in, H].
    - intros [(z & E & H)|(z & E & _)]; [injection E as <-; apply without_in, H|discriminate E].
    - intros H. left. exists y. split; [reflexivity|apply without_in, H]. }
  assert (Nmap : forall (b : bool) (s : list string), NoDup s -> NoDup (map (Datatypes.pair b) s)).
  { intros b s. apply FinFun.Injective_map_NoDup. intros x y E. congruence. }
  assert (Napp : forall l l' : list string, NoDup l -> NoDup l' -> NoDup (map (Datatypes.pair false) l ++ map (Datatypes.pair true) l')).
  { intros l l' H H'. apply nodup_app; [apply Nmap, H|apply Nmap, H'|]. intros [b y] Hx Hx'. apply in_map_iff in Hx as (? & E & _). apply in_map_iff in Hx' as (? & E' & _). congruence. }
  assert (Ib : forall b y, In (b, y) (both C) <-> In y s1 /\ In y s2).
  { intros b y. unfold both. rewrite in_flat_map. split.
    - intros (z & Hz & [E|[E|[]]]); injection E as _ <-; apply common_in, Hz.
    - intros H. exists y. split; [apply common_in, H|]. destruct b; [right; left|left]; reflexivity. }
  assert (Nb : NoDup (both C)).
  { assert (NC : NoDup C) by apply common_nodup, N1. clear - NC. unfold both. induction NC as [|y l Hy _ IH]; [constructor|]. cbn [flat_map app].
    assert (H : forall b, ~ In (b, y) (flat_map (fun y0 => [(false, y0); (true, y0)]) l)).
    { intros b H. apply in_flat_map in H as (z & Hz & [E|[E|[]]]); injection E as _ <-; contradiction. }
    constructor; [intros [E|Hi]; [discriminate E|exact (H _ Hi)]|]. constructor; [apply H|exact IH]. }
  assert (Nl : NoDup labs) by (apply Napp; assumption).
  assert (Nr : NoDup rest) by (apply Napp; apply without_nodup; assumption).
  assert (Hp : Permutation labs (both C ++ rest)).
  { apply NoDup_Permutation; [exact Nl| |].
    - apply nodup_app; [exact Nb|exact Nr|]. intros [b y] H H'. apply Ib in H. apply Ir in H'. destruct b; tauto.
    - intros [b y]. rewrite in_app_iff, Il, Ib, Ir. destruct b; [destruct (in_dec string_dec y s1)|destruct (in_dec string_dec y s2)]; tauto. }
  transitivity (con2 (twins (fun _ => Nof) C) (alongs2 (moves Mof labs) F) (join f f)).
  { apply (con_ext n leqb leqb_spec); [apply ok_join; exact Of|]. intros h Oh _.
    rewrite (alongs_part n false), (alongs_part n true) by (eapply dep_pure; eassumption). rewrite !map_map. cbn [fst snd].
    rewrite (alongs_prod leqb leqb_spec); [|exact Oh| | |].
    - unfold moves, labs. rewrite map_app, !map_map. reflexivity.
    - rewrite map_map. cbn [fst]. intros h1 h2 E. apply D1. intros x _. apply E. intros H. apply in_map_iff in H as (? & E' & _). congruence.
    - rewrite map_map. cbn [fst]. intros h1 h2 E. apply D2. intros x _. apply E. intros H. apply in_map_iff in H as (? & E' & _). congruence.
    - rewrite !map_map. cbn [fst]. intros x H H'. apply in_map_iff in H as (? & E & _). apply in_map_iff in H' as (? & E' & _). congruence. }
  rewrite (con_general n Mof (fun _ => Nof) (fun _ => Pof) labs rest C F f); try assumption.
  - unfold rest. rewrite map_app, !map_map. cbn [snd]. apply (alongs_eqn n String.eqb String.eqb_spec); [exact Of|]. intros h Oh. symmetry. apply contracted_con.
    apply (dep_pure _ _ DF).
  - intros [b y] H H'. cbn [fst snd] in H'. apply Ir in H. apply Il in H'. destruct b; cbn [negb] in H'; tauto.
Qed.

Lemma opposite_zof s1 i1 s2 i2 i2' y : NoDup s1 -> NoDup s2 -> length i1 = length s1 -> length i2 = length s2 -> opposite s1 i1 s2 i2 i2' ->
  In y s2 -> (In y s1 -> zof s2 i2' y = - zof s1 i1 y)%Z /\ (~ In y s1 -> zof s2 i2' y = zof s2 i2 y).
Proof.
  intros N1 N2 L1 L2 [Lo H] Hy. destruct (spos_in y s2 Hy) as (j & E & Hj). unfold zof. rewrite E. apply spos_some in E as [E _].
  destruct (nth_error i2' j) as [z|] eqn:Ez; [|apply nth_error_None in Ez; lia]. destruct (H j y z E Ez) as [H1 H2]. rewrite (nth_error_nth i2' j 0%Z Ez). split.
  - intros Hy1. destruct (spos_in y s1 Hy1) as (p & E1 & Hp). rewrite E1. apply spos_some in E1 as [E1 _].
    destruct (nth_error i1 p) as [z1|] eqn:Ez1; [|apply nth_error_None in Ez1; lia]. rewrite (nth_error_nth i1 p 0%Z Ez1). apply (H1 p); assumption.
  - intros Hy1. symmetry. apply nth_error_nth. auto.
Qed.

Lemma product_value s1 i1 s2 i2 i2' V1 V2 f : NoDup s1 -> NoDup s2 -> length i1 = length s1 -> length i2 = length s2 -> valid_cfg i1 ->
  opposite s1 i1 s2 i2 i2' -> dep (fun x => In x s1) V1 -> dep (fun x => In x s2) V2 -> ok n f ->
  let C := common s1 s2 in
  lsum (tuples n (length C)) (fun ks => lifts s1 (map cv i1) V1 (assign C ks f) * lifts s2 (map cv i2') V2 (assign C ks f)) ==
  lifts (without s1 s2 ++ without s2 s1) (map cv (indices_without s1 i1 s2 ++ indices_without s2 i2 s1))
    (fun f => contracted n gi C (fun f1 f2 => V1 f1 * V2 f2) f f) f.
Proof.
  intros N1 N2 L1 L2 Vi Ho D1 D2 Of C. assert (Lo : length i2' = length s2) by apply Ho.
  assert (P1 := dep_pure _ _ D1). assert (P2 := dep_pure _ _ D2).
  set (Mof := fun a : lab => cv (if fst a then zof s2 i2' (snd a) else zof s1 i1 (snd a))).
  set (A1 := alongs1 (map (fun y => (y, Mof (false, y))) s1) V1). set (A2 := alongs1 (map (fun y => (y, Mof (true, y))) s2) V2).
  assert (E1 : forall h, ok n h -> lifts s1 (map cv i1) V1 h == A1 h).
  { intros h Oh. rewrite lifted_alongs by (try rewrite map_length; assumption). rewrite combine_zof by assumption. reflexivity. }
  assert (E2 : forall h, ok n h -> lifts s2 (map cv i2') V2 h == A2 h).
  { intros h Oh. rewrite lifted_alongs by (try rewrite map_length; assumption). rewrite combine_zof by assumption. reflexivity. }
  transitivity (lsum (tuples n (length C)) (fun ks => A1 (assign C ks f) * A2 (assign C ks f))).
  { apply lsum_ext. intros ks Hks. apply in_tuples in Hks as [Hk1 Hk2].
    assert (Oa : ok n (assign C ks f)).
    { intros x. unfold assign. destruct (index_of String.eqb x C) as [j|] eqn:E; [|apply Of]. apply (proj1 (Forall_forall _ _) Hk2). apply nth_In.
      apply spos_some in E as [E _]. rewrite Hk1. apply nth_error_Some. congruence. }
    rewrite (E1 _ Oa), (E2 _ Oa). reflexivity. }
  assert (PA : pure2 (fun h => A1 (part false h) * A2 (part true h))).
  { assert (Q1 : pure1 A1) by (apply (alongs_pure n String.eqb); exact P1). assert (Q2 : pure1 A2) by (apply (alongs_pure n String.eqb); exact P2).
    intros h h' E. rewrite (Q1 (part false h) (part false h')), (Q2 (part true h) (part true h')); [reflexivity| |]; intros x _; apply E, I. }
  rewrite (sums_con n C (fun f1 f2 => A1 f1 * A2 f2) f f (common_nodup _ _ N1) PA).
  assert (HP : forall y p q, In y C -> (p < n)%nat -> (q < n)%nat -> nsum n (fun k => nsum n (fun l => kdelta k l * (Mof (false, y) k p * Mof (true, y) l q))) == gi p q).
  { intros y p q Hy Hp Hq. apply common_in in Hy as [Hy1 Hy2]. unfold Mof. cbn [fst snd].
    rewrite (proj1 (opposite_zof s1 i1 s2 i2 i2' y N1 N2 L1 L2 Ho Hy2) Hy1).
    assert (Hz := zof_valid s1 i1 y Vi L1 Hy1). apply pair_metric; try assumption; [destruct Hz as [-> | ->]; cbn; auto|].
    intros k l _ _. destruct Hz as [-> | ->]; reflexivity. }
  etransitivity; [exact (product_general s1 s2 V1 V2 Mof kdelta gi f N1 N2 D1 D2 Of HP)|].
  rewrite lifted_alongs.
    + rewrite !zof_without by assumption. rewrite map_app, !map_map.
      assert (Ec : combine (without s1 s2 ++ without s2 s1) (map (fun x => cv (zof s1 i1 x)) (without s1 s2) ++ map (fun x => cv (zof s2 i2 x)) (without s2 s1)) =
                   map (fun y => (y, Mof (false, y))) (without s1 s2) ++ map (fun y => (y, Mof (true, y))) (without s2 s1)).
      { assert (Hc : forall (l l' : list string) (h h' : string -> mat), combine (l ++ l') (map h l ++ map h' l') = map (fun y => (y, h y)) l ++ map (fun y => (y, h' y)) l').
        { clear. intros l l' h h'. induction l as [|y l IH]; cbn [app map combine].
          - induction l' as [|y l' IH]; cbn [map combine]; [reflexivity|]. rewrite IH. reflexivity.
          - rewrite IH. reflexivity. }
        rewrite Hc. f_equal. apply map_ext_in. intros y Hy. apply without_in in Hy as [Hy Hn]. unfold Mof. cbn [fst snd].
        rewrite (proj2 (opposite_zof s1 i1 s2 i2 i2' y N1 N2 L1 L2 Ho Hy) Hn). reflexivity. }
      rewrite Ec. reflexivity.
    + apply nodup_app; [apply without_nodup, N1|apply without_nodup, N2|]. intros x H H'. apply without_in in H. apply without_in in H'. tauto.
    + rewrite map_length, !app_length, !indices_without_length by assumption. reflexivity.
    + intros h h' E. rewrite !contracted_con.
      * apply (con_pure n leqb leqb_spec); [|intros [b x] _; unfold join; cbn; destruct b; apply E, I].
        intros k k' Ek. rewrite (P1 (part false k) (part false k')), (P2 (part true k) (part true k')); [reflexivity| |]; intros x _; apply Ek, I.
      * intros k k' Ek. rewrite (P1 (part false k) (part false k')), (P2 (part true k) (part true k')); [reflexivity| |]; intros x _; apply Ek, I.
      * intros k k' Ek. rewrite (P1 (part false k) (part false k')), (P2 (part true k) (part true k')); [reflexivity| |]; intros x _; apply Ek, I.
    + exact Of.
Qed.
End Values.
