(** Metrics that differ by a factor: the product of the hyperbolic plane and the plane, four times
    that metric, exp(2z) times that metric, and a conformally flat metric. *)
From Coq Require Import QArith Qcanon.
From Verif Require Import Alg Alg_P Arr Arr_P Spec TensorM Inst InstExp WorldM SpecWorld CalcM SpecCalc CurvM SpecCurv SpecDim SpecScale ExWorld Witness_World_P Witness_Volume_P.
Local Open Scope nat_scope.

Definition four : list string := ["x"; "y"; "z"; "t"]%string.
Definition diag4 (p q r s : pexp) : @arr ExpOps :=
  @mkArr ExpOps [4; 4] [p; PC 0%Q; PC 0%Q; PC 0%Q; PC 0%Q; q; PC 0%Q; PC 0%Q; PC 0%Q; PC 0%Q; r; PC 0%Q; PC 0%Q; PC 0%Q; PC 0%Q; s].
Definition sq (e : pexp) : pexp := PMul e e.
Definition e_z : pexp := PV (ex_ "z").
Definition i_z : pexp := PV (in_ "z").
(** dx^2 + exp(2x) dy^2 + dz^2 - dt^2 *)
Definition prod_g : @arr ExpOps := diag4 (PC 1%Q) (sq e_x) (PC 1%Q) (PC (-1)%Q).
Definition prod_gi : @arr ExpOps := diag4 (PC 1%Q) (sq i_x) (PC 1%Q) (PC (-1)%Q).
Definition prod4_g : @arr ExpOps := diag4 (PC 4%Q) (PMul (PC 4%Q) (sq e_x)) (PC 4%Q) (PC (-4)%Q).
Definition prod4_gi : @arr ExpOps := diag4 (PC (1 # 4)%Q) (PMul (PC (1 # 4)%Q) (sq i_x)) (PC (1 # 4)%Q) (PC (- 1 # 4)%Q).
Definition conf_g : @arr ExpOps := diag4 (sq e_z) (PMul (sq e_z) (sq e_x)) (sq e_z) (POpp (sq e_z)).
Definition conf_gi : @arr ExpOps := diag4 (sq i_z) (PMul (sq i_z) (sq i_x)) (sq i_z) (POpp (sq i_z)).
(** exp(2x) (dx^2 + dy^2 + dz^2 - dt^2) *)
Definition cflat_h : @arr ExpOps := diag4 (PC 1%Q) (PC 1%Q) (PC 1%Q) (PC (-1)%Q).
Definition cflat_g : @arr ExpOps := diag4 (sq e_x) (sq e_x) (sq e_x) (POpp (sq e_x)).
Definition cflat_gi : @arr ExpOps := diag4 (sq i_x) (sq i_x) (sq i_x) (POpp (sq i_x)).
Definition four_w (name : string) (g : @arr ExpOps) : @world ExpOps := @run_all ExpOps
  [OpCoordinates (str_ "XYZT") (VSyms [4] four) (VTuple [1]%Z) (str_ "x") [];
   OpMetric (str_ name) (VArr g) (VObj 0) (VTuple [-1; -1]%Z) (str_ "g")] empty_world.
Definition prod_w := four_w "g" prod_g.
Definition prod4_w := four_w "h" prod4_g.
Definition conf_w := four_w "k" conf_g.
Definition cflat_w := four_w "c" cflat_g.

Ltac four_session := split; [apply a_sessionb_spec; [apply run_all_reachable; [apply reach_start|vmtrue]|vmtrue]|apply a_known_none; vmtrue].
Lemma prod_session :
  metric_session prod_w 4 1 0 "g" four (emat prod_g) (emat prod_gi) /\ known_results 4 four (emat prod_g) (emat prod_gi) prod_w 1 0 "g".
Proof. four_session. Qed.
Lemma prod4_session :
  metric_session prod4_w 4 1 0 "h" four (emat prod4_g) (emat prod4_gi) /\ known_results 4 four (emat prod4_g) (emat prod4_gi) prod4_w 1 0 "h".
Proof. four_session. Qed.
Lemma conf_session :
  metric_session conf_w 4 1 0 "k" four (emat conf_g) (emat conf_gi) /\ known_results 4 four (emat conf_g) (emat conf_gi) conf_w 1 0 "k".
Proof. four_session. Qed.
Lemma cflat_session :
  metric_session cflat_w 4 1 0 "c" four (emat cflat_g) (emat cflat_gi) /\ known_results 4 four (emat cflat_g) (emat cflat_gi) cflat_w 1 0 "c".
Proof. four_session. Qed.

Lemma times_spec (a : @K ExpOps) g g' : @a_matb ExpOps 4 (emat g') (fun i j => @kmul ExpOps a (@aget ExpOps g [i; j])) = true -> @times_metric ExpOps 4 a (emat g) (emat g').
Proof. intros H i j Hi Hj. apply (a_matb_spec _ _ _ H i j Hi Hj). Qed.
Lemma constant_spec (a : @K ExpOps) : forallb (fun s => @a_same ExpOps (@kdiff ExpOps s a) (@k0 ExpOps)) four = true -> @constant ExpOps four a.
Proof. intros H s Hs. rewrite forallb_forall in H. apply a_same_spec, H, Hs. Qed.
Lemma free_spec (w : @world ExpOps) s : a_free w [s] = true -> forall j, In j (insts w) -> named w s j -> ~ used w j.
Proof. intros H j Hj Hn. exfalso. exact (a_free_spec _ _ H s j (or_introl eq_refl) Hj Hn). Qed.

Lemma prod4_times : @times_metric ExpOps 4 (PC 4%Q) (emat prod_g) (emat prod4_g) /\ @keq ExpOps (@kmul ExpOps (PC 4%Q) (PC (1 # 4)%Q)) (@k1 ExpOps) /\
  @constant ExpOps four (PC 4%Q).
Proof. split; [apply times_spec; vmtrue|]. split; [apply a_same_spec; vmtrue|apply constant_spec; vmtrue]. Qed.
Lemma conf_times : @times_metric ExpOps 4 (sq e_z) (emat prod_g) (emat conf_g) /\ @keq ExpOps (@kmul ExpOps (sq e_z) (sq i_z)) (@k1 ExpOps).
Proof. split; [apply times_spec; vmtrue|apply a_same_spec; vmtrue]. Qed.
Lemma cflat_times : @times_metric ExpOps 4 (sq e_x) (emat cflat_h) (emat cflat_g) /\ @keq ExpOps (@kmul ExpOps (sq e_x) (sq i_x)) (@k1 ExpOps) /\
  forall i j, i < 4 -> j < 4 -> @constant ExpOps four (@aget ExpOps cflat_h [i; j]).
Proof.
  split; [apply times_spec; vmtrue|]. split; [apply a_same_spec; vmtrue|].
  intros i j Hi Hj. do 4 (destruct i as [|i]; [do 4 (destruct j as [|j]; [apply constant_spec; vmtrue|]); lia|]). lia.
Qed.
Lemma four_no_ricci :
  (forall j, In j (insts prod_w) -> named prod_w ("g" ++ " Ricci Tensor") j -> ~ used prod_w j) /\
  (forall j, In j (insts conf_w) -> named conf_w ("k" ++ " Ricci Tensor") j -> ~ used conf_w j) /\
  (forall j, In j (insts cflat_w) -> named cflat_w ("c" ++ " Ricci Tensor") j -> ~ used cflat_w j).
Proof. split; [|split]; apply free_spec; vmtrue. Qed.

(** The Ricci scalar of the product is -2, and its Weyl tensor is not zero. *)
Lemma prod_curved :
  @keq ExpOps (@Sca ExpOps 4 four (emat prod_g) (emat prod_gi)) (PC (-2)%Q) /\ ~ @keq ExpOps (PC (-2)%Q) (@k0 ExpOps) /\
  ~ @keq ExpOps (@Wey ExpOps 4 four (emat prod_g) (emat prod_gi) 2 3 2 3) (@k0 ExpOps).
Proof.
  split; [apply a_same_spec; vmtrue|]. split; [intros H; apply (eeq_Qc _ _ (fun _ => 1%Qc)) in H; [|reflexivity]; discriminate H|].
  intros H. assert (E : @keq ExpOps (@Wey ExpOps 4 four (emat prod_g) (emat prod_gi) 2 3 2 3) (PC (1 # 3)%Q)) by (apply a_same_spec; vmtrue).
  assert (Z : @keq ExpOps (PC (1 # 3)%Q) (@k0 ExpOps)) by (transitivity (@Wey ExpOps 4 four (emat prod_g) (emat prod_gi) 2 3 2 3); [symmetry; exact E|exact H]).
  apply (eeq_Qc _ _ (fun _ => 1%Qc)) in Z; [|reflexivity]. discriminate Z.
Qed.
(** The flat factor is not constant, and the conformally flat metric is curved. *)
Lemma cflat_curved : ~ @keq ExpOps (@Sca ExpOps 4 four (emat cflat_g) (emat cflat_gi)) (@k0 ExpOps).
Proof.
  intros H. assert (E : @keq ExpOps (@Sca ExpOps 4 four (emat cflat_g) (emat cflat_gi)) (PMul (PC (-6)%Q) (sq i_x))) by (apply a_same_spec; vmtrue).
  assert (Z : @keq ExpOps (PMul (PC (-6)%Q) (sq i_x)) (@k0 ExpOps)) by (transitivity (@Sca ExpOps 4 four (emat cflat_g) (emat cflat_gi)); [symmetry; exact E|exact H]).
  apply (eeq_Qc _ _ (fun _ => 1%Qc)) in Z; [|reflexivity]. discriminate Z.
Qed.
