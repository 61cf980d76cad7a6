(** The metrics of Defaults.py in a concrete session. *)
From Coq Require Import QArith Qcanon.
From Verif Require Import Alg Alg_P Arr Arr_P Spec UtilsM Arr2_P Act_P TensorM RL_P Tensor_P Inst InstSph WorldM SpecWorld World_P Registry_P Geo_P History_P Norm_P CalcM SpecCalc CurvM SpecCurv SpecDefault ExWorld Witness_World_P Witness_History_P Witness_Volume_P.
Local Open Scope nat_scope.

Ltac two H := let H' := fresh "C" in apply andb_prop in H as [H H'].
(** Values checked by evaluation over any algebra *)
Section Check.
Context {A : AlgOps} {L : AlgLaws A}.
Definition a_holdsb (n r : nat) (a : arr) (f : list nat -> K) : bool :=
  a_cubicb n r a && forallb (fun idx => a_same (aget a idx) (f idx)) (all_idx (repeat n r)).
Lemma a_holdsb_spec n r a f : a_holdsb n r a f = true -> holds n r a f.
Proof.
  intros H. apply andb_prop in H as [H1 H2]. apply a_cubicb_spec in H1 as [H1 H3]. split; [exact H1|]. split; [exact H3|].
  intros idx Hi. rewrite forallb_forall in H2. apply a_same_spec, H2, in_all_idx, inb_rng, Hi.
Qed.
Definition a_rightb (w : world) (n : nat) (c t : oid) (i : list Z) (h : list nat -> K) : bool :=
  a_view w t (fun o => match dget Nat.eqb c (o_comps o) with
    | Some d => forallb (fun ja => cfg_eqb (fst ja) i && cfgb (length i) i && a_holdsb n (length i) (snd ja) h) d
    | None => true
    end) false.
Lemma a_rightb_spec w n c t g gi i h : a_rightb w n c t i h = true -> stored_right w n c t g gi i h.
Proof.
  intros H o d j b Ho Hd Hb. unfold a_rightb, a_view in H. rewrite Ho, Hd in H. rewrite forallb_forall in H. specialize (H (j, b) (cget_In _ _ _ Hb)).
  cbn [fst snd] in H. two H. two H. apply cfg_eqb_spec in H. subst j. apply cfgb_spec in C0 as [H1 H3]. split; [exact H1|]. split; [exact H3|].
  apply a_holdsb_spec in C as (X1 & X2 & X3). split; [exact X1|]. split; [exact X2|]. intros idx Hi. rewrite (X3 idx Hi). symmetry. apply converted_self, Hi.
Qed.
Definition a_valueb (w : world) (n : nat) (m c t : oid) (k : cls) (i : list Z) (h : list nat -> K) : bool :=
  clsb w t k && a_view w t (fun o => a_opt (o_metric o) m && cfg_eqb (o_indices o) i && (o_rank o =? length i) && a_opt (o_coords o) c &&
    match dget Nat.eqb c (o_comps o) with Some d => match dget cfg_eqb i d with Some a => a_holdsb n (length i) a h | None => false end | None => false end) false.
Lemma a_valueb_spec w n m c t k i h : k <> CCoordinates -> a_valueb w n m c t k i h = true -> tensor_value w n m c t i h.
Proof.
  intros Nk H. apply andb_prop in H as [Hk H]. unfold a_view in H. destruct (obj_of w t) as [o|] eqn:Ho; [|discriminate]. do 4 two H.
  destruct (dget Nat.eqb c (o_comps o)) as [d|] eqn:Hd; [|discriminate]. destruct (dget cfg_eqb i d) as [a|] eqn:Ha; [|discriminate].
  apply a_opt_spec in H, C0. apply cfg_eqb_spec in C2. apply Nat.eqb_eq in C1.
  exists k, o, a. split; [apply clsb_spec, Hk|]. split; [exact Nk|]. split; [exact Ho|]. split; [exact H|]. split; [exact C2|]. split; [exact C1|].
  split; [split; [exact C0|]; exists d; split; [exact Hd|rewrite C2; exact Ha]|]. apply a_holdsb_spec, C.
Qed.
End Check.

Definition sph_xs : list string := ["t"; "r"; "theta"; "phi"]%string.
Definition sph_mat (f : nat -> nat -> pexp) : @arr SphOps :=
  @mkArr SphOps [4; 4] (map (fun p => match p with [i; j] => f i j | _ => PC 0%Q end) (tuples 4 2)).
Definition sph_cube (f : list nat -> pexp) : @arr SphOps := @mkArr SphOps [4; 4; 4; 4] (map f (tuples 4 4)).
Definition sph_str (s : string) : @pyval SphOps := VStr s.

(** M = "M", k = "k" and a(t) = "a" *)
Definition sch_g : nat -> nat -> pexp := @schwarzschild SphOps v_M v_r v_ri v_s v_fi.
Definition sch_gi : nat -> nat -> pexp :=
  @diagonal SphOps [POpp v_fi; v_f; PMul v_ri v_ri; PMul (PMul v_ri v_ri) (PMul v_si v_si)].
Definition sch_u : pexp := PMul v_M (PMul (PMul v_ri v_ri) v_ri).
Definition sch_R : list nat -> pexp := at4 (@planes SphOps sch_g (@schwarzschild_planes SphOps sch_u)).
Definition flr_g : nat -> nat -> pexp := @flrw SphOps v_a v_r v_s v_wi.
Definition flr_gi : nat -> nat -> pexp :=
  @diagonal SphOps [PC (-1)%Q; PMul (PMul v_ai v_ai) v_w; PMul (PMul v_ai v_ai) (PMul v_ri v_ri); PMul (PMul (PMul v_ai v_ai) (PMul v_ri v_ri)) (PMul v_si v_si)].
Definition v_a1 : pexp := PV "a'".
Definition v_a2 : pexp := PV "a''".
Definition flr_u : pexp := PMul v_a2 v_ai.
Definition flr_v : pexp := PMul (PAdd (PMul v_a1 v_a1) v_k) (PMul v_ai v_ai).
Definition flr_R : list nat -> pexp := at4 (@planes SphOps flr_g (@flrw_planes SphOps flr_u flr_v)).
Definition def_w : @world SphOps := @run_all SphOps
  [OpCoordinates (sph_str "4D Spherical") (VSyms [4] sph_xs) (VTuple [1]%Z) (sph_str "x") [];
   OpMetric (sph_str "Schwarzschild") (VArr (sph_mat sch_g)) (VObj 0) (VTuple [-1; -1]%Z) (sph_str "g");
   OpMetric (sph_str "FLRW") (VArr (sph_mat flr_g)) (VObj 0) (VTuple [-1; -1]%Z) (sph_str "g");
   OpTensor (sph_str "P") (VArr (sph_cube sch_R)) (VObj 1) (VObj 0) (VTuple [1; -1; -1; -1]%Z) (sph_str "P");
   OpTensor (sph_str "Q") (VArr (sph_cube flr_R)) (VObj 2) (VObj 0) (VTuple [1; -1; -1; -1]%Z) (sph_str "Q")] empty_world.
Lemma def_reachable : @reachable SphOps def_w.
Proof. apply run_all_reachable; [apply reach_start|vmtrue]. Qed.
Lemma def_functions : @spherical_functions SphOps sph_xs v_r v_ri v_s v_si v_c.
Proof.
  assert (D : forall q e d, forallb (fun p => @a_same SphOps (@kdiff SphOps (nth p sph_xs ""%string) e) (if p =? q then d else @k0 SphOps)) (seq 0 4) = true -> @depends_on SphOps sph_xs q e d).
  { intros q e d H p Hp. rewrite forallb_forall in H. apply a_same_spec, H, in_seq. cbn in Hp. lia. }
  split; [reflexivity|]. split; [apply a_same_spec; vmtrue|]. split; [apply a_same_spec; vmtrue|]. split; [apply a_same_spec; vmtrue|].
  split; [apply D; vmtrue|]. split; apply D; vmtrue.
Qed.
Lemma def_constant s : s = "M"%string \/ s = "k"%string -> @constant_in SphOps sph_xs (PV s).
Proof.
  intros Hs. assert (H : forallb (fun p => @a_same SphOps (@kdiff SphOps (nth p sph_xs ""%string) (PV s)) (@k0 SphOps)) (seq 0 4) = true) by (destruct Hs; subst s; vmtrue).
  intros p Hp. rewrite forallb_forall in H. apply a_same_spec, H, in_seq. cbn in Hp. lia.
Qed.
Lemma def_scale : @depends_on SphOps sph_xs 0 v_a v_a1 /\ @depends_on SphOps sph_xs 0 v_a1 v_a2.
Proof.
  assert (D : forall q e d, forallb (fun p => @a_same SphOps (@kdiff SphOps (nth p sph_xs ""%string) e) (if p =? q then d else @k0 SphOps)) (seq 0 4) = true -> @depends_on SphOps sph_xs q e d).
  { intros q e d H p Hp. rewrite forallb_forall in H. apply a_same_spec, H, in_seq. cbn in Hp. lia. }
  split; apply D; vmtrue.
Qed.
Lemma def_free names : a_free def_w names = true -> forall s j, In s names -> In j (insts def_w) -> ~ named def_w s j.
Proof. apply a_free_spec. Qed.
Lemma sch_session : @metric_session SphOps def_w 4 1 0 "Schwarzschild" sph_xs sch_g sch_gi.
Proof. apply a_sessionb_spec; [apply def_reachable|vmtrue]. Qed.
Lemma sch_known : @known_results SphOps 4 sph_xs sch_g sch_gi def_w 1 0 "Schwarzschild".
Proof. apply a_known_none; vmtrue. Qed.
Lemma flr_session : @metric_session SphOps def_w 4 2 0 "FLRW" sph_xs flr_g flr_gi.
Proof. apply a_sessionb_spec; [apply def_reachable|vmtrue]. Qed.
Lemma flr_known : @known_results SphOps 4 sph_xs flr_g flr_gi def_w 2 0 "FLRW".
Proof. apply a_known_none; vmtrue. Qed.
Lemma def_no_ricci name : name = "Schwarzschild"%string \/ name = "FLRW"%string ->
  forall j, In j (insts def_w) -> named def_w (name ++ " Ricci Tensor") j -> ~ used def_w j.
Proof.
  intros Hn j Hj N. exfalso. assert (F : a_free def_w ["Schwarzschild Ricci Tensor"; "FLRW Ricci Tensor"]%string = true) by vmtrue.
  assert (I : In (name ++ " Ricci Tensor")%string ["Schwarzschild Ricci Tensor"; "FLRW Ricci Tensor"]%string).
  { clear - Hn. destruct Hn as [-> | ->]; [left; reflexivity|right; left; reflexivity]. }
  exact (a_free_spec _ _ F (name ++ " Ricci Tensor")%string j I Hj N).
Qed.
Lemma sch_tensor : named def_w "P" 3 /\ "P"%string <> "TEMP"%string /\
  tensor_value def_w 4 1 0 3 [1; -1; -1; -1]%Z sch_R /\ stored_right def_w 4 0 3 sch_g sch_gi [1; -1; -1; -1]%Z sch_R /\
  cls_of def_w 3 <> Some CMetric /\ forall j, In j (insts def_w) -> ~ named def_w "P Norm Squared" j.
Proof.
  split; [apply is_named_spec; vmtrue|]. split; [discriminate|]. split; [apply (a_valueb_spec _ _ _ _ _ CTensor); [discriminate|vmtrue]|].
  split; [apply a_rightb_spec; vmtrue|]. split.
  - assert (H : clsb def_w 3 CTensor = true) by vmtrue. apply clsb_spec in H. rewrite H. discriminate.
  - assert (F : a_free def_w ["P Norm Squared"]%string = true) by vmtrue. intros j. apply (a_free_spec _ _ F). left. reflexivity.
Qed.
Lemma flr_tensor : named def_w "Q" 4 /\ "Q"%string <> "TEMP"%string /\
  tensor_value def_w 4 2 0 4 [1; -1; -1; -1]%Z flr_R /\ stored_right def_w 4 0 4 flr_g flr_gi [1; -1; -1; -1]%Z flr_R /\
  cls_of def_w 4 <> Some CMetric /\ forall j, In j (insts def_w) -> ~ named def_w "Q Norm Squared" j.
Proof.
  split; [apply is_named_spec; vmtrue|]. split; [discriminate|]. split; [apply (a_valueb_spec _ _ _ _ _ CTensor); [discriminate|vmtrue]|].
  split; [apply a_rightb_spec; vmtrue|]. split.
  - assert (H : clsb def_w 4 CTensor = true) by vmtrue. apply clsb_spec in H. rewrite H. discriminate.
  - assert (F : a_free def_w ["Q Norm Squared"]%string = true) by vmtrue. intros j. apply (a_free_spec _ _ F). left. reflexivity.
Qed.
(** M/r^3, a''/a and (a'^2 + k)/a^2 are not zero *)
Lemma sch_u_not_zero : ~ @keq SphOps sch_u (@k0 SphOps).
Proof. intros H. apply seq_point in H. discriminate H. Qed.
Lemma flr_not_zero : ~ @keq SphOps flr_u (@k0 SphOps) /\ ~ @keq SphOps flr_v (@k0 SphOps).
Proof. split; intros H; apply seq_point in H; discriminate H. Qed.
Lemma sch_horizon : @keq SphOps (kmul (@horizon_function SphOps v_M v_ri) v_fi) k1.
Proof. apply a_same_spec. vmtrue. Qed.
Lemma flr_inverse : @keq SphOps (@kmul SphOps v_a v_ai) k1.
Proof. apply a_same_spec. vmtrue. Qed.
Lemma flr_curvature : @keq SphOps (kmul (@curvature_function SphOps v_k v_r) v_wi) k1.
Proof. apply a_same_spec. vmtrue. Qed.
