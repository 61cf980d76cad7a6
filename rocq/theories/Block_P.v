(** Curvature of the product of two spaces. *)
From Verif Require Import Alg Alg_P Arr Arr_P Spec Act_P TensorM WorldM SpecWorld CalcM SpecCalc CurvM SpecCurv SpecDim SpecConst SpecBlock Curv_P Curv2_P CurvDim_P CurvDim2_P CurvConst_P Scale_P Voss_P.
Local Open Scope K_scope.

Section Inverse.
Context {A : AlgOps} {L : AlgLaws A}.
Add Ring Kring : kring (setoid keq_equiv kring_ext).
Lemma inverse_same n (g gi gj : nat -> nat -> K) : inverse_fun n g gi ->
  (forall i j, (i < n)%nat -> (j < n)%nat -> nsum n (fun k => g i k * gj k j) == kdelta i j) ->
  forall i j, (i < n)%nat -> (j < n)%nat -> gi i j == gj i j.
Proof.
  intros Hi Hj i j Bi Bj. transitivity (nsum n (fun k => gi i k * kdelta k j)); [symmetry; apply (nsum_delta_r n j (fun k => gi i k) Bj)|].
  transitivity (nsum n (fun k => nsum n (fun l => gi i k * g k l * gj l j))).
  { apply nsum_ext. intros k Hk. rewrite <- (Hj k j Hk Bj), <- nsum_scale. apply nsum_ext. intros l Hl. ring. }
  rewrite nsum_swap. transitivity (nsum n (fun l => kdelta i l * gj l j)).
  { apply nsum_ext. intros l Hl. rewrite <- (proj2 Hi i l Bi Hl), <- nsum_scale_r. reflexivity. }
  apply (nsum_delta_l n i (fun l => gj l j) Bi).
Qed.
Lemma nsum_split n1 n2 f : nsum (n1 + n2) f == nsum n1 f + nsum n2 (fun l => f (n1 + l)%nat).
Proof.
  revert f. induction n1 as [|n1 IH]; intros f; cbn [Nat.add].
  - transitivity (k0 + nsum n2 f); [ring|]. apply kadd_proper; [reflexivity|]. apply nsum_ext. reflexivity.
  - rewrite !nsum_S, IH. cbn [Nat.add]. ring.
Qed.
Context {D : DiffLaws A}.
Lemma diff_inverse n (g gi : nat -> nat -> K) s : inverse_fun n g gi -> (forall i j, (i < n)%nat -> (j < n)%nat -> kdiff s (g i j) == k0) ->
  forall i j, (i < n)%nat -> (j < n)%nat -> kdiff s (gi i j) == k0.
Proof.
  intros Hi H i j Bi Bj.
  assert (E : forall p, (p < n)%nat -> nsum n (fun k => g p k * kdiff s (gi k j)) == k0).
  { intros p Hp. transitivity (kdiff s (nsum n (fun k => g p k * gi k j))).
    - rewrite kdiff_nsum. apply nsum_ext. intros k Hk. rewrite kdiff_mul, (H p k Hp Hk). ring.
    - rewrite (kdiff_proper _ _ _ (proj1 Hi p j Hp Bj)). unfold kdelta. destruct (p =? j)%nat; [apply kdiff_1|apply kdiff_0]. }
  transitivity (nsum n (fun k => kdelta i k * kdiff s (gi k j))); [symmetry; apply (nsum_delta_l n i (fun k => kdiff s (gi k j)) Bi)|].
  transitivity (nsum n (fun k => nsum n (fun p => gi i p * (g p k * kdiff s (gi k j))))).
  { apply nsum_ext. intros k Hk. rewrite <- (proj2 Hi i k Bi Hk), <- nsum_scale_r. apply nsum_ext. intros p Hp. ring. }
  rewrite nsum_swap. apply nsum_zero'. intros p Hp. rewrite nsum_scale, (E p Hp). ring.
Qed.
End Inverse.

Section Block.
Context {A : AlgOps} {L : AlgLaws A} {D : DiffLaws A}.
Add Ring Kring2 : kring (setoid keq_equiv kring_ext).
Variables (n1 n2 : nat) (xs1 xs2 : list string) (g1 gi1 g2 gi2 g gi : nat -> nat -> K).
Hypothesis Hx1 : length xs1 = n1.
Hypothesis Hx2 : length xs2 = n2.
Hypothesis Hi1 : inverse_fun n1 g1 gi1.
Hypothesis Hi2 : inverse_fun n2 g2 gi2.
Hypothesis Hi : inverse_fun (n1 + n2) g gi.
Hypothesis HP : product_metric n1 n2 xs1 xs2 g1 g2 g.
Notation n := (n1 + n2)%nat.
Notation xs := (xs1 ++ xs2).

(** The space of an index ([true]: the first one), and the index there. *)
Definition tag (i : nat) : bool := (i <? n1)%nat.
Definition loc (i : nat) : nat := if tag i then i else (i - n1)%nat.
Definition inj (t : bool) (l : nat) : nat := if t then l else (n1 + l)%nat.
Definition N (t : bool) : nat := if t then n1 else n2.
Definition X (t : bool) : list string := if t then xs1 else xs2.
Definition G (t : bool) : nat -> nat -> K := if t then g1 else g2.
Definition GI (t : bool) : nat -> nat -> K := if t then gi1 else gi2.

Lemma inj_lt t l : (l < N t)%nat -> (inj t l < n)%nat.
Proof. destruct t; cbn; lia. Qed.
Lemma tag_inj t l : (l < N t)%nat -> tag (inj t l) = t.
Proof. unfold tag. destruct t; cbn; intros H; [apply Nat.ltb_lt; exact H|apply Nat.ltb_ge; lia]. Qed.
Lemma loc_inj t l : (l < N t)%nat -> loc (inj t l) = l.
Proof. intros H. unfold loc. rewrite (tag_inj t l H). destruct t; cbn; lia. Qed.
Lemma loc_lt i : (i < n)%nat -> (loc i < N (tag i))%nat.
Proof. intros H. unfold loc. destruct (tag i) eqn:E; unfold tag in E; [apply Nat.ltb_lt in E|apply Nat.ltb_ge in E]; cbn; lia. Qed.
Lemma inj_loc i : inj (tag i) (loc i) = i.
Proof. unfold loc. destruct (tag i) eqn:E; unfold tag in E; [apply Nat.ltb_lt in E|apply Nat.ltb_ge in E]; cbn; lia. Qed.

Lemma block_sum t f : (forall l, (l < n)%nat -> tag l <> t -> f l == k0) -> nsum n f == nsum (N t) (fun l => f (inj t l)).
Proof.
  intros H. rewrite nsum_split. destruct t.
  - change (nsum (N true) (fun l => f (inj true l))) with (nsum n1 f). rewrite (nsum_zero' n2) by (intros l Hl; apply H; [lia|]; unfold tag; intros E; apply Nat.ltb_lt in E; lia). ring.
  - change (nsum (N false) (fun l => f (inj false l))) with (nsum n2 (fun l => f (n1 + l)%nat)). rewrite (nsum_zero' n1) by (intros l Hl; apply H; [lia|]; unfold tag; intros E; apply Nat.ltb_ge in E; lia). ring.
Qed.
Lemma HIt t : inverse_fun (N t) (G t) (GI t).
Proof. destruct t; assumption. Qed.

(** Two indices *)
Lemma joined2 (f1 f2 : nat -> nat -> K) i j : (i < n)%nat -> (j < n)%nat ->
  joined n1 (at2 f1) (at2 f2) [i; j] = if Bool.eqb (tag i) (tag j) then (if tag i then f1 else f2) (loc i) (loc j) else k0.
Proof.
  intros _ _. unfold joined, loc, tag, at2. cbn [forallb map nth]. destruct (Nat.ltb_spec i n1), (Nat.ltb_spec j n1); cbn [Bool.eqb andb]; try reflexivity.
  - destruct (Nat.leb_spec n1 i); [lia|]. reflexivity.
  - destruct (Nat.leb_spec n1 j); [lia|]. rewrite Bool.andb_false_r. reflexivity.
  - destruct (Nat.leb_spec n1 j), (Nat.leb_spec n1 i); try lia. reflexivity.
Qed.
Lemma gB i j : (i < n)%nat -> (j < n)%nat -> tag i = tag j -> g i j == G (tag i) (loc i) (loc j).
Proof.
  intros Bi Bj E. rewrite (proj1 HP i j Bi Bj), joined2 by assumption. rewrite <- E, Bool.eqb_reflx. destruct (tag i); reflexivity.
Qed.
Lemma gZ i j : (i < n)%nat -> (j < n)%nat -> tag i <> tag j -> g i j == k0.
Proof. intros Bi Bj E. rewrite (proj1 HP i j Bi Bj), joined2 by assumption. apply Bool.eqb_false_iff in E. rewrite E. reflexivity. Qed.

Definition gj (i j : nat) : K := if Bool.eqb (tag i) (tag j) then GI (tag i) (loc i) (loc j) else k0.
Lemma gj_inverse i j : (i < n)%nat -> (j < n)%nat -> nsum n (fun k => g i k * gj k j) == kdelta i j.
Proof.
  intros Bi Bj. rewrite (block_sum (tag i)) by (intros l Hl E; rewrite (gZ i l Bi Hl) by auto; ring).
  transitivity (nsum (N (tag i)) (fun l => G (tag i) (loc i) l * gj (inj (tag i) l) j)).
  { apply nsum_ext. intros l Hl. rewrite (gB i (inj (tag i) l) Bi (inj_lt _ _ Hl)), (loc_inj _ _ Hl) by (rewrite tag_inj; auto). reflexivity. }
  destruct (Bool.bool_dec (tag i) (tag j)) as [E|E].
  - transitivity (nsum (N (tag i)) (fun l => G (tag i) (loc i) l * GI (tag i) l (loc j))).
    { apply nsum_ext. intros l Hl. unfold gj. rewrite (tag_inj _ _ Hl), (loc_inj _ _ Hl), E, Bool.eqb_reflx. reflexivity. }
    rewrite (proj1 (HIt (tag i)) (loc i) (loc j)) by (try apply loc_lt; try assumption; rewrite E; apply loc_lt; assumption).
    unfold kdelta. destruct (Nat.eqb_spec (loc i) (loc j)) as [F|F], (Nat.eqb_spec i j) as [F'|F']; try reflexivity.
    + exfalso. apply F'. rewrite <- (inj_loc i), <- (inj_loc j), E, F. reflexivity.
    + exfalso. apply F. rewrite F'. reflexivity.
  - rewrite nsum_zero'.
    + unfold kdelta. destruct (Nat.eqb_spec i j) as [F|F]; [exfalso; apply E; rewrite F; reflexivity|reflexivity].
    + intros l Hl. unfold gj. rewrite (tag_inj _ _ Hl). apply Bool.eqb_false_iff in E. rewrite E. ring.
Qed.
Lemma gi_gj i j : (i < n)%nat -> (j < n)%nat -> gi i j == gj i j.
Proof. apply inverse_same with (g := g); [exact Hi|exact gj_inverse]. Qed.
Lemma giB i j : (i < n)%nat -> (j < n)%nat -> tag i = tag j -> gi i j == GI (tag i) (loc i) (loc j).
Proof. intros Bi Bj E. rewrite gi_gj by assumption. unfold gj. rewrite <- E, Bool.eqb_reflx. reflexivity. Qed.
Lemma giZ i j : (i < n)%nat -> (j < n)%nat -> tag i <> tag j -> gi i j == k0.
Proof. intros Bi Bj E. rewrite gi_gj by assumption. unfold gj. apply Bool.eqb_false_iff in E. rewrite E. reflexivity. Qed.

(** Derivatives *)
Lemma cx_block k : (k < n)%nat -> cx xs k = cx (X (tag k)) (loc k).
Proof.
  intros H. unfold cx, loc. destruct (tag k) eqn:E; unfold tag in E; [apply Nat.ltb_lt in E|apply Nat.ltb_ge in E]; cbn [X].
  - apply app_nth1. lia.
  - rewrite app_nth2 by lia. rewrite Hx1. reflexivity.
Qed.
Lemma cx_in k : (k < n)%nat -> In (cx xs k) (X (tag k)).
Proof.
  intros H. rewrite (cx_block k H). unfold cx. apply nth_In. pose proof (loc_lt k H) as B. destruct (tag k); cbn in *; lia.
Qed.
Lemma dG t s i j : In s (X (negb t)) -> (i < N t)%nat -> (j < N t)%nat -> kdiff s (G t i j) == k0.
Proof. destruct HP as (_ & P1 & P2). destruct t; cbn; intros; [apply P1|apply P2]; assumption. Qed.
Lemma dGI t s i j : In s (X (negb t)) -> (i < N t)%nat -> (j < N t)%nat -> kdiff s (GI t i j) == k0.
Proof. intros Hs Bi Bj. apply (diff_inverse (N t) (G t) (GI t) s (HIt t)); try assumption. intros; apply dG; assumption. Qed.
Lemma other t t' : t <> t' -> t' = negb t.
Proof. destruct t, t'; intros H; try reflexivity; destruct H; reflexivity. Qed.
Lemma dgB k i j : (k < n)%nat -> (i < n)%nat -> (j < n)%nat -> tag i = tag j -> tag k = tag i ->
  kdiff (cx xs k) (g i j) == kdiff (cx (X (tag i)) (loc k)) (G (tag i) (loc i) (loc j)).
Proof. intros Bk Bi Bj E F. rewrite (kdiff_proper _ _ _ (gB i j Bi Bj E)), (cx_block k Bk), F. reflexivity. Qed.
Lemma dgZ k i j : (k < n)%nat -> (i < n)%nat -> (j < n)%nat -> (tag i <> tag j \/ tag i <> tag k) -> kdiff (cx xs k) (g i j) == k0.
Proof.
  intros Bk Bi Bj E. destruct (Bool.bool_dec (tag i) (tag j)) as [F|F].
  - destruct E as [E|E]; [contradiction|]. rewrite (kdiff_proper _ _ _ (gB i j Bi Bj F)). apply dG.
    + rewrite <- (other _ _ E). apply cx_in, Bk.
    + apply loc_lt, Bi.
    + rewrite F. apply loc_lt, Bj.
  - rewrite (kdiff_proper _ _ _ (gZ i j Bi Bj F)). apply kdiff_0.
Qed.

(** Christoffel symbols *)
Definition GamT (t : bool) := Gam (N t) (X t) (G t) (GI t).
Lemma gamZ i j k : (i < n)%nat -> (j < n)%nat -> (k < n)%nat -> (tag i <> tag j \/ tag i <> tag k) -> Gam n xs g gi i j k == k0.
Proof.
  intros Bi Bj Bk E. unfold Gam, christoffel_of. apply nsum_zero'. intros l Hl. destruct (Bool.bool_dec (tag i) (tag l)) as [F|F].
  - rewrite (dgZ j l k Bj Hl Bk), (dgZ k j l Bk Bj Hl), (dgZ l j k Hl Bj Bk); [ring|..]; rewrite <- ?F;
      destruct (tag i), (tag j), (tag k); intuition congruence.
  - rewrite (giZ i l Bi Hl F). ring.
Qed.
Lemma gamB i j k : (i < n)%nat -> (j < n)%nat -> (k < n)%nat -> tag j = tag i -> tag k = tag i ->
  Gam n xs g gi i j k == GamT (tag i) (loc i) (loc j) (loc k).
Proof.
  intros Bi Bj Bk Ej Ek. unfold GamT, Gam, christoffel_of. rewrite (block_sum (tag i)) by (intros l Hl E; rewrite (giZ i l Bi Hl) by auto; ring).
  apply nsum_ext. intros l Hl. pose proof (inj_lt _ _ Hl) as Bl. pose proof (tag_inj _ _ Hl) as El.
  rewrite (giB i _ Bi Bl) by congruence. rewrite (dgB j _ k Bj Bl Bk), (dgB k j _ Bk Bj Bl), (dgB _ j k Bl Bj Bk) by congruence.
  rewrite El, Ej, (loc_inj _ _ Hl). reflexivity.
Qed.
Lemma dGamT t s i j k : In s (X (negb t)) -> (i < N t)%nat -> (j < N t)%nat -> (k < N t)%nat -> kdiff s (GamT t i j k) == k0.
Proof.
  intros Hs Bi Bj Bk. unfold GamT, Gam, christoffel_of. rewrite kdiff_nsum. apply nsum_zero'. intros l Hl.
  rewrite !kdiff_mul, kdiff_sub, kdiff_add, (dGI t s i l Hs Bi Hl), !(kdiff_comm s).
  rewrite (kdiff_proper _ _ _ (dG t s l k Hs Hl Bk)), (kdiff_proper _ _ _ (dG t s j l Hs Bj Hl)), (kdiff_proper _ _ _ (dG t s j k Hs Bj Bk)), !kdiff_0.
  rewrite kdiff_half. ring.
Qed.

(** Riemann tensor *)
Definition RieT (t : bool) := Rie (N t) (X t) (G t) (GI t).
Lemma dgamZ m r v s : (m < n)%nat -> (r < n)%nat -> (v < n)%nat -> (s < n)%nat -> (tag r <> tag v \/ tag r <> tag s \/ tag r <> tag m) ->
  kdiff (cx xs m) (Gam n xs g gi r v s) == k0.
Proof.
  intros Bm Br Bv Bs E. destruct (Bool.bool_dec (tag r) (tag v)) as [F|F]; [|rewrite (kdiff_proper _ _ _ (gamZ r v s Br Bv Bs (or_introl F))); apply kdiff_0].
  destruct (Bool.bool_dec (tag r) (tag s)) as [F'|F']; [|rewrite (kdiff_proper _ _ _ (gamZ r v s Br Bv Bs (or_intror F'))); apply kdiff_0].
  rewrite (kdiff_proper _ _ _ (gamB r v s Br Bv Bs (eq_sym F) (eq_sym F'))). assert (E' : tag r <> tag m) by tauto.
  apply dGamT; [rewrite <- (other _ _ E'); apply cx_in, Bm|apply loc_lt, Br|rewrite F; apply loc_lt, Bv|rewrite F'; apply loc_lt, Bs].
Qed.
Lemma rieZ r s m v : (r < n)%nat -> (s < n)%nat -> (m < n)%nat -> (v < n)%nat -> (tag r <> tag s \/ tag r <> tag m \/ tag r <> tag v) ->
  Rie n xs g gi r s m v == k0.
Proof.
  intros Br Bs Bm Bv E. unfold Rie, riemann_of. rewrite (dgamZ m r v s), (dgamZ v r m s) by (assumption || tauto).
  rewrite !nsum_zero'; [ring|..]; intros l Hl; (destruct (Bool.bool_dec (tag r) (tag l)) as [F|F]; [|rewrite gamZ by auto; ring]).
  - destruct (Bool.bool_dec (tag r) (tag v)) as [F'|F']; [|rewrite (gamZ r v l) by auto; ring]. rewrite (gamZ l m s) by (rewrite <- ?F; tauto). ring.
  - destruct (Bool.bool_dec (tag r) (tag m)) as [F'|F']; [|rewrite (gamZ r m l) by auto; ring]. rewrite (gamZ l v s) by (rewrite <- ?F; tauto). ring.
Qed.
Lemma dgamB m r v s : (m < n)%nat -> (r < n)%nat -> (v < n)%nat -> (s < n)%nat -> tag v = tag r -> tag s = tag r -> tag m = tag r ->
  kdiff (cx xs m) (Gam n xs g gi r v s) == kdiff (cx (X (tag r)) (loc m)) (GamT (tag r) (loc r) (loc v) (loc s)).
Proof. intros Bm Br Bv Bs E1 E2 E3. rewrite (kdiff_proper _ _ _ (gamB r v s Br Bv Bs E1 E2)), (cx_block m Bm), E3. reflexivity. Qed.
Lemma rieB r s m v : (r < n)%nat -> (s < n)%nat -> (m < n)%nat -> (v < n)%nat -> tag s = tag r -> tag m = tag r -> tag v = tag r ->
  Rie n xs g gi r s m v == RieT (tag r) (loc r) (loc s) (loc m) (loc v).
Proof.
  intros Br Bs Bm Bv Es Em Ev. unfold RieT, Rie, riemann_of. rewrite (dgamB m r v s), (dgamB v r m s) by assumption.
  rewrite !(block_sum (tag r)) by (intros l Hl E; rewrite (gamZ r _ l) by auto; ring).
  apply ksub_proper; [apply kadd_proper; [reflexivity|]|]; apply nsum_ext; intros l Hl; pose proof (inj_lt _ _ Hl) as Bl; pose proof (tag_inj _ _ Hl) as El.
  - rewrite (gamB r m _ Br Bm Bl Em El), (gamB _ v s Bl Bv Bs) by congruence. rewrite El, (loc_inj _ _ Hl). reflexivity.
  - rewrite (gamB r v _ Br Bv Bl Ev El), (gamB _ m s Bl Bm Bs) by congruence. rewrite El, (loc_inj _ _ Hl). reflexivity.
Qed.

(** Ricci tensor and scalar *)
Definition RicT (t : bool) := Ric (N t) (X t) (G t) (GI t).
Lemma ricZ i j : (i < n)%nat -> (j < n)%nat -> tag i <> tag j -> Ric n xs g gi i j == k0.
Proof.
  intros Bi Bj E. unfold Ric, ricci_of. apply nsum_zero'. intros l Hl. apply rieZ; try assumption.
  destruct (tag l), (tag i), (tag j); intuition congruence.
Qed.
Lemma ricB i j : (i < n)%nat -> (j < n)%nat -> tag j = tag i -> Ric n xs g gi i j == RicT (tag i) (loc i) (loc j).
Proof.
  intros Bi Bj E. unfold RicT, Ric, ricci_of. rewrite (block_sum (tag i)) by (intros l Hl F; apply rieZ; auto).
  apply nsum_ext. intros l Hl. pose proof (inj_lt _ _ Hl) as Bl. pose proof (tag_inj _ _ Hl) as El.
  rewrite (rieB _ i _ j Bl Bi Bl Bj) by congruence. rewrite El, (loc_inj _ _ Hl). reflexivity.
Qed.
Lemma sca_part t : nsum (N t) (fun i => nsum n (fun j => gi (inj t i) j * Ric n xs g gi (inj t i) j)) == Sca (N t) (X t) (G t) (GI t).
Proof.
  unfold Sca, trace_of. apply nsum_ext. intros i Bi'. pose proof (inj_lt _ _ Bi') as Bi. pose proof (tag_inj _ _ Bi') as Ei.
  rewrite (block_sum t) by (intros l Hl F; rewrite (giZ _ l Bi Hl) by congruence; ring).
  apply nsum_ext. intros j Bj'. pose proof (inj_lt _ _ Bj') as Bj. pose proof (tag_inj _ _ Bj') as Ej.
  rewrite (giB _ _ Bi Bj), (ricB _ _ Bi Bj) by congruence. rewrite Ei, !loc_inj by assumption. reflexivity.
Qed.
Lemma sca_sum : Sca n xs g gi == Sca n1 xs1 g1 gi1 + Sca n2 xs2 g2 gi2.
Proof. unfold Sca at 1, trace_of at 1. rewrite nsum_split. rewrite <- (sca_part true), <- (sca_part false). reflexivity. Qed.

End Block.

(** Components *)
Section Components.
Context {A : AlgOps}.
Variable n1 : nat.
Lemma joined_same (f1 f2 : list nat -> K) t idx : Forall (fun i => tag n1 i = t) idx -> idx <> [] -> joined n1 f1 f2 idx = (if t then f1 else f2) (map (loc n1) idx).
Proof.
  intros H Ne. unfold joined. destruct t.
  - replace (forallb (fun i => (i <? n1)%nat) idx) with true.
    + f_equal. symmetry. rewrite <- (map_id idx) at 2. apply map_ext_in. intros i Hin. rewrite Forall_forall in H. unfold loc. rewrite (H i Hin). reflexivity.
    + symmetry. apply forallb_forall. rewrite Forall_forall in H. exact H.
  - replace (forallb (fun i => (i <? n1)%nat) idx) with false.
    + replace (forallb (fun i => (n1 <=? i)%nat) idx) with true.
      * f_equal. apply map_ext_in. intros i Hin. rewrite Forall_forall in H. unfold loc. rewrite (H i Hin). reflexivity.
      * symmetry. apply forallb_forall. intros i Hin. rewrite Forall_forall in H. specialize (H i Hin). unfold tag in H. apply Nat.ltb_ge in H. apply Nat.leb_le. exact H.
    + symmetry. destruct idx as [|i idx]; [contradiction|]. inversion H as [|? ? H1 _]; subst. unfold tag in H1. cbn [forallb]. rewrite H1. reflexivity.
Qed.
Lemma joined_mixed (f1 f2 : list nat -> K) i j idx : In i idx -> In j idx -> tag n1 i <> tag n1 j -> joined n1 f1 f2 idx = k0.
Proof.
  intros Hin Hjn E. unfold joined.
  assert (F : forall p q, In p idx -> In q idx -> tag n1 p = true -> tag n1 q = false -> joined n1 f1 f2 idx = k0).
  { intros p q Hp Hq Tp Tq. unfold joined. replace (forallb (fun i => (i <? n1)%nat) idx) with false.
    - replace (forallb (fun i => (n1 <=? i)%nat) idx) with false; [reflexivity|]. symmetry. apply not_true_iff_false. intros C. rewrite forallb_forall in C. specialize (C p Hp).
      unfold tag in Tp. apply Nat.leb_le in C. apply Nat.ltb_lt in Tp. lia.
    - symmetry. apply not_true_iff_false. intros C. rewrite forallb_forall in C. specialize (C q Hq). unfold tag in Tq. congruence. }
  destruct (tag n1 i) eqn:Ei, (tag n1 j) eqn:Ej; try congruence; [apply (F i j)|apply (F j i)]; assumption.
Qed.
End Components.

Section Computed.
Context {A : AlgOps} {L : AlgLaws A} {D : DiffLaws A}.
Add Ring Kring3 : kring (setoid keq_equiv kring_ext).
Local Open Scope nat_scope.
Variables (n1 n2 : nat) (xs1 xs2 : list string) (m1 c1 m2 c2 m c : oid) (name1 name2 name : string) (g1 gi1 g2 gi2 g gi : nat -> nat -> K) (w1 w2 w : world).
Hypothesis HS1 : metric_session w1 n1 m1 c1 name1 xs1 g1 gi1.
Hypothesis HK1 : known_results n1 xs1 g1 gi1 w1 m1 c1 name1.
Hypothesis HS2 : metric_session w2 n2 m2 c2 name2 xs2 g2 gi2.
Hypothesis HK2 : known_results n2 xs2 g2 gi2 w2 m2 c2 name2.
Hypothesis HS : metric_session w (n1 + n2) m c name (xs1 ++ xs2) g gi.
Hypothesis HK : known_results (n1 + n2) (xs1 ++ xs2) g gi w m c name.
Hypothesis HP : product_metric n1 n2 xs1 xs2 g1 g2 g.

Lemma joins_ext i p1 p2 p f1 f2 f :
  (exists t v, p1 w1 = (Ok t, v) /\ tensor_value v n1 m1 c1 t i f1) -> (exists t v, p2 w2 = (Ok t, v) /\ tensor_value v n2 m2 c2 t i f2) ->
  (exists t v, p w = (Ok t, v) /\ tensor_value v (n1 + n2) m c t i f) ->
  (forall idx, in_range (n1 + n2) (length i) idx -> keq (f idx) (joined n1 f1 f2 idx)) ->
  joins n1 n2 i p1 m1 c1 w1 p2 m2 c2 w2 p m c w.
Proof.
  intros (t1 & v1 & E1 & V1) (t2 & v2 & E2 & V2) (t & v & E & V) H. exists t1, v1, t2, v2, t, v, f1, f2. do 5 (split; [assumption|]).
  eapply value_ext; [|exact V]. intros idx R. apply H, R.
Qed.

Lemma block_computed :
  joins n1 n2 [1; -1; -1]%Z (calc_christoffel m1) m1 c1 w1 (calc_christoffel m2) m2 c2 w2 (calc_christoffel m) m c w /\
  joins n1 n2 [1; -1; -1; -1]%Z (calc_riemann m1) m1 c1 w1 (calc_riemann m2) m2 c2 w2 (calc_riemann m) m c w /\
  joins n1 n2 [-1; -1]%Z (calc_ricci m1) m1 c1 w1 (calc_ricci m2) m2 c2 w2 (calc_ricci m) m c w /\
  exists t1 v1 s1 t2 v2 s2 t v,
    calc_ricci_scalar m1 w1 = (Ok t1, v1) /\ tensor_value v1 n1 m1 c1 t1 [] (fun _ => s1) /\
    calc_ricci_scalar m2 w2 = (Ok t2, v2) /\ tensor_value v2 n2 m2 c2 t2 [] (fun _ => s2) /\
    calc_ricci_scalar m w = (Ok t, v) /\ tensor_value v (n1 + n2) m c t [] (fun _ => kadd s1 s2).
Proof.
  destruct (session_metric n1 m1 c1 name1 xs1 g1 gi1 w1 HS1) as [_ Hi1]. destruct (session_metric n2 m2 c2 name2 xs2 g2 gi2 w2 HS2) as [_ Hi2].
  destruct (session_metric (n1 + n2) m c name (xs1 ++ xs2) g gi w HS) as [_ Hi].
  assert (Hx1 : length xs1 = n1) by (exact (scale_length n1 xs1 m1 c1 name1 g1 gi1 w1 HS1)).
  assert (Hx2 : length xs2 = n2) by (exact (scale_length n2 xs2 m2 c2 name2 g2 gi2 w2 HS2)).
  assert (W : forall (i : list Z) (p : M oid) m c name n xs g gi ns f w, gives n xs g gi p m c name ns i f w -> exists t v, p w = (Ok t, v) /\ tensor_value v n m c t i f).
  { intros i p m' c' name' n' xs' g' gi' ns f w' (t & v & E & _ & V & _). eauto. }
  split; [|split; [|split]].
  - eapply joins_ext; [eapply W, christoffel_gives; eassumption..|]. intros idx R. destruct (range3 _ idx R) as (B0 & B1 & B2).
    destruct R as [Rl _]. destruct idx as [|i [|j [|k [|]]]]; try discriminate Rl. cbn [nth] in *.
    destruct (Bool.bool_dec (tag n1 i) (tag n1 j)) as [F|F]; [destruct (Bool.bool_dec (tag n1 i) (tag n1 k)) as [F'|F']|].
    + rewrite (joined_same n1 _ _ (tag n1 i)) by (repeat constructor || discriminate; congruence). cbn [map].
      transitivity (GamT n1 n2 xs1 xs2 g1 gi1 g2 gi2 (tag n1 i) (loc n1 i) (loc n1 j) (loc n1 k)); [|destruct (tag n1 i); reflexivity].
      apply (gamB n1 n2 xs1 xs2 g1 gi1 g2 gi2 g gi); auto.
    + rewrite (joined_mixed n1 _ _ i k) by (cbn; auto). apply (gamZ n1 n2 xs1 xs2 g1 gi1 g2 gi2 g gi); auto.
    + rewrite (joined_mixed n1 _ _ i j) by (cbn; auto). apply (gamZ n1 n2 xs1 xs2 g1 gi1 g2 gi2 g gi); auto.
  - eapply joins_ext; [eapply W, riemann_gives; eassumption..|]. intros idx R. destruct (range4 _ idx R) as (B0 & B1 & B2 & B3).
    destruct R as [Rl _]. destruct idx as [|i [|j [|k [|l [|]]]]]; try discriminate Rl. cbn [nth] in *.
    destruct (Bool.bool_dec (tag n1 i) (tag n1 j)) as [F|F]; [destruct (Bool.bool_dec (tag n1 i) (tag n1 k)) as [F'|F']; [destruct (Bool.bool_dec (tag n1 i) (tag n1 l)) as [F''|F'']|]|].
    + rewrite (joined_same n1 _ _ (tag n1 i)) by (repeat constructor || discriminate; congruence). cbn [map].
      transitivity (RieT n1 n2 xs1 xs2 g1 gi1 g2 gi2 (tag n1 i) (loc n1 i) (loc n1 j) (loc n1 k) (loc n1 l)); [|destruct (tag n1 i); reflexivity].
      apply (rieB n1 n2 xs1 xs2 g1 gi1 g2 gi2 g gi); auto.
    + rewrite (joined_mixed n1 _ _ i l) by (cbn; auto). apply (rieZ n1 n2 xs1 xs2 g1 gi1 g2 gi2 g gi); auto.
    + rewrite (joined_mixed n1 _ _ i k) by (cbn; auto). apply (rieZ n1 n2 xs1 xs2 g1 gi1 g2 gi2 g gi); auto.
    + rewrite (joined_mixed n1 _ _ i j) by (cbn; auto). apply (rieZ n1 n2 xs1 xs2 g1 gi1 g2 gi2 g gi); auto.
  - eapply joins_ext; [eapply W, ricci_gives; eassumption..|]. intros idx R. destruct (range2 _ idx R) as (B0 & B1).
    destruct R as [Rl _]. destruct idx as [|i [|j [|]]]; try discriminate Rl. cbn [nth] in *.
    destruct (Bool.bool_dec (tag n1 i) (tag n1 j)) as [F|F].
    + rewrite (joined_same n1 _ _ (tag n1 i)) by (repeat constructor || discriminate; congruence). cbn [map].
      transitivity (RicT n1 n2 xs1 xs2 g1 gi1 g2 gi2 (tag n1 i) (loc n1 i) (loc n1 j)); [|destruct (tag n1 i); reflexivity].
      apply (ricB n1 n2 xs1 xs2 g1 gi1 g2 gi2 g gi); auto.
    + rewrite (joined_mixed n1 _ _ i j) by (cbn; auto). apply (ricZ n1 n2 xs1 xs2 g1 gi1 g2 gi2 g gi); auto.
  - destruct (W _ _ _ _ _ _ _ _ _ _ _ _ (scalar_gives n1 m1 c1 name1 xs1 g1 gi1 w1 HS1 HK1)) as (t1 & v1 & E1 & V1).
    destruct (W _ _ _ _ _ _ _ _ _ _ _ _ (scalar_gives n2 m2 c2 name2 xs2 g2 gi2 w2 HS2 HK2)) as (t2 & v2 & E2 & V2).
    destruct (W _ _ _ _ _ _ _ _ _ _ _ _ (scalar_gives _ m c name _ g gi w HS HK)) as (t & v & E & V).
    exists t1, v1, (Sca n1 xs1 g1 gi1), t2, v2, (Sca n2 xs2 g2 gi2), t, v. do 5 (split; [assumption|]). eapply value_ext; [|exact V].
    intros idx R. apply sca_sum; assumption.
Qed.
End Computed.
