(** The metrics of Defaults.py: C195 (Schwarzschild) and C196 (FLRW). *)
From Coq Require Import QArith Qcanon.
From Verif Require Import Alg Arr Spec TensorM WorldM SpecWorld CalcM SpecCalc CurvM SpecCurv SpecConst SpecDefault DefaultRun_P Inst InstSph ExWorld Witness_Volume_P Witness_Default_P.
Local Open Scope nat_scope.

Section Default.
Context {A : AlgOps} {L : AlgLaws A} {D : DiffLaws A}.
Variables (m c : oid) (name : string) (xs : list string) (g gi : nat -> nat -> K).
Notation session w := (metric_session w 4 m c name xs g gi).
Notation known w := (known_results 4 xs g gi w m c name).
Notation gives := (gives 4 xs g gi).

(** C195.  diag(-(1 - 2 M/r), 1/(1 - 2 M/r), r^2, r^2 sin(theta)^2) with any constant M: the
    connection is the well-known one, the curvatures of the planes are 2 M/r^3 and -M/r^3, and
    the Ricci tensor, the Ricci scalar and the Einstein tensor are zero. *)
Theorem C195_schwarzschild_computed w M r ri s si cos fi :
  session w -> spherical_functions xs r ri s si cos -> constant_in xs M ->
  keq (kmul (horizon_function M ri) fi) k1 ->
  (forall i j, i < 4 -> j < 4 -> keq (g i j) (schwarzschild M r ri s fi i j)) -> known w ->
  gives (calc_christoffel m) m c name [(name ++ " Christoffel")]%string [1; -1; -1]%Z
    (at3 (schwarzschild_gamma M r ri s si cos fi)) w /\
  gives (calc_riemann m) m c name [(name ++ " Christoffel"); (name ++ " Riemann")]%string [1; -1; -1; -1]%Z
    (at4 (planes g (schwarzschild_planes (kmul M (kmul (kmul ri ri) ri))))) w /\
  gives (calc_ricci m) m c name [(name ++ " Christoffel"); (name ++ " Riemann"); (name ++ " Ricci Tensor")]%string [-1; -1]%Z
    (fun _ => k0) w /\
  gives (calc_ricci_scalar m) m c name
    [(name ++ " Christoffel"); (name ++ " Riemann"); (name ++ " Ricci Tensor"); (name ++ " Ricci Scalar")]%string []
    (fun _ => k0) w /\
  gives (calc_einstein m) m c name
    [(name ++ " Christoffel"); (name ++ " Riemann"); (name ++ " Ricci Tensor"); (name ++ " Ricci Scalar"); (name ++ " Einstein")]%string [-1; -1]%Z
    (fun _ => k0) w.
Proof. intros HS Hf HM HF Hg. exact (schwarzschild_computed m c name xs g gi w HS M r ri s si cos fi Hf HM HF Hg). Qed.

(** The Weyl tensor is the whole Riemann tensor with all indices down. *)
Theorem C195_schwarzschild_weyl w M r ri s si cos fi :
  session w -> spherical_functions xs r ri s si cos -> constant_in xs M ->
  keq (kmul (horizon_function M ri) fi) k1 ->
  (forall i j, i < 4 -> j < 4 -> keq (g i j) (schwarzschild M r ri s fi i j)) -> known w ->
  (forall j, In j (insts w) -> named w (name ++ " Ricci Tensor") j -> ~ used w j) ->
  exists t w', calc_weyl m w = (Ok t, w') /\ In t (insts w') /\
    tensor_value w' 4 m c t [-1; -1; -1; -1]%Z
      (at4 (fun i k l p => kmul (schwarzschild_planes (kmul M (kmul (kmul ri ri) ri)) i k) (ksub (kmul (g i l) (g k p)) (kmul (g i p) (g k l))))) /\
    session w' /\ known w'.
Proof. intros HS Hf HM HF Hg. exact (schwarzschild_weyl m c name xs g gi w HS M r ri s si cos fi Hf HM HF Hg). Qed.

(** The norm squared of a tensor with the components of the Riemann tensor (the Kretschmann
    scalar) is 48 M^2/r^6. *)
Theorem C195_schwarzschild_norm w M r ri s si cos fi t tn :
  session w -> spherical_functions xs r ri s si cos -> constant_in xs M ->
  keq (kmul (horizon_function M ri) fi) k1 ->
  (forall i j, i < 4 -> j < 4 -> keq (g i j) (schwarzschild M r ri s fi i j)) ->
  named w tn t -> tn <> "TEMP"%string ->
  tensor_value w 4 m c t [1; -1; -1; -1]%Z (at4 (planes g (schwarzschild_planes (kmul M (kmul (kmul ri ri) ri))))) ->
  stored_right w 4 c t g gi [1; -1; -1; -1]%Z (at4 (planes g (schwarzschild_planes (kmul M (kmul (kmul ri ri) ri))))) ->
  cls_of w t <> Some CMetric -> (forall j, In j (insts w) -> ~ named w (tn ++ " Norm Squared") j) ->
  exists v w', calc_norm_squared t w = (Ok v, w') /\ In v (insts w') /\ named w' (tn ++ " Norm Squared") v /\
    tensor_value w' 4 m c v []
      (fun _ => kmul (knat 48) (kmul (kmul M (kmul (kmul ri ri) ri)) (kmul M (kmul (kmul ri ri) ri)))).
Proof. intros HS Hf HM HF Hg. exact (schwarzschild_norm m c name xs g gi w HS M r ri s si cos fi Hf HF Hg t tn). Qed.

(** C196.  diag(-1, a^2/(1 - k r^2), a^2 r^2, a^2 r^2 sin(theta)^2) with any function a of t and
    any constant k; [a1] is a' and [a2] is a''.  The components are the ones of the Friedmann
    equations. *)
Theorem C196_flrw_computed w a ai a1 a2 k r ri s si cos wi :
  session w -> spherical_functions xs r ri s si cos -> constant_in xs k -> keq (kmul a ai) k1 ->
  depends_on xs 0 a a1 -> depends_on xs 0 a1 a2 -> keq (kmul (curvature_function k r) wi) k1 ->
  (forall i j, i < 4 -> j < 4 -> keq (g i j) (flrw a r s wi i j)) -> known w ->
  let u := kmul a2 ai in
  let v := kmul (kadd (kmul a1 a1) k) (kmul ai ai) in
  gives (calc_christoffel m) m c name [(name ++ " Christoffel")]%string [1; -1; -1]%Z
    (at3 (flrw_gamma a ai a1 k r ri s si cos wi)) w /\
  gives (calc_riemann m) m c name [(name ++ " Christoffel"); (name ++ " Riemann")]%string [1; -1; -1; -1]%Z
    (at4 (planes g (flrw_planes u v))) w /\
  gives (calc_ricci m) m c name [(name ++ " Christoffel"); (name ++ " Riemann"); (name ++ " Ricci Tensor")]%string [-1; -1]%Z
    (at2 (fun i j => kmul (if i =? 0 then kmul (knat 3) u else kadd u (kmul (knat 2) v)) (g i j))) w /\
  gives (calc_ricci_scalar m) m c name
    [(name ++ " Christoffel"); (name ++ " Riemann"); (name ++ " Ricci Tensor"); (name ++ " Ricci Scalar")]%string []
    (fun _ => kmul (knat 6) (kadd u v)) w /\
  gives (calc_einstein m) m c name
    [(name ++ " Christoffel"); (name ++ " Riemann"); (name ++ " Ricci Tensor"); (name ++ " Ricci Scalar"); (name ++ " Einstein")]%string [-1; -1]%Z
    (at2 (fun i j => kmul (if i =? 0 then kopp (kmul (knat 3) v) else kopp (kadd (kmul (knat 2) u) v)) (g i j))) w.
Proof. intros HS Hf Hk Ha Ha1 Ha2 HW Hg. exact (flrw_computed m c name xs g gi w HS a ai a1 a2 k r ri s si cos wi Hf Hk Ha Ha1 Ha2 HW Hg). Qed.

(** The Weyl tensor is zero: these space-times are conformally flat. *)
Theorem C196_flrw_weyl w a ai a1 a2 k r ri s si cos wi :
  session w -> spherical_functions xs r ri s si cos -> constant_in xs k -> keq (kmul a ai) k1 ->
  depends_on xs 0 a a1 -> depends_on xs 0 a1 a2 -> keq (kmul (curvature_function k r) wi) k1 ->
  (forall i j, i < 4 -> j < 4 -> keq (g i j) (flrw a r s wi i j)) -> known w ->
  (forall j, In j (insts w) -> named w (name ++ " Ricci Tensor") j -> ~ used w j) ->
  exists t w', calc_weyl m w = (Ok t, w') /\ In t (insts w') /\
    tensor_value w' 4 m c t [-1; -1; -1; -1]%Z (fun _ => k0) /\ session w' /\ known w'.
Proof. intros HS Hf Hk Ha Ha1 Ha2 HW Hg. exact (flrw_weyl m c name xs g gi w HS a ai a1 a2 k r ri s si cos wi Hf Hk Ha Ha1 Ha2 HW Hg). Qed.

(** The Kretschmann scalar is 12 ((a''/a)^2 + ((a'^2 + k)/a^2)^2). *)
Theorem C196_flrw_norm w a ai a1 a2 k r ri s si cos wi t tn :
  session w -> spherical_functions xs r ri s si cos -> constant_in xs k -> keq (kmul a ai) k1 ->
  depends_on xs 0 a a1 -> depends_on xs 0 a1 a2 -> keq (kmul (curvature_function k r) wi) k1 ->
  (forall i j, i < 4 -> j < 4 -> keq (g i j) (flrw a r s wi i j)) ->
  let u := kmul a2 ai in
  let v := kmul (kadd (kmul a1 a1) k) (kmul ai ai) in
  named w tn t -> tn <> "TEMP"%string ->
  tensor_value w 4 m c t [1; -1; -1; -1]%Z (at4 (planes g (flrw_planes u v))) ->
  stored_right w 4 c t g gi [1; -1; -1; -1]%Z (at4 (planes g (flrw_planes u v))) ->
  cls_of w t <> Some CMetric -> (forall j, In j (insts w) -> ~ named w (tn ++ " Norm Squared") j) ->
  exists x w', calc_norm_squared t w = (Ok x, w') /\ In x (insts w') /\ named w' (tn ++ " Norm Squared") x /\
    tensor_value w' 4 m c x [] (fun _ => kmul (knat 12) (kadd (kmul u u) (kmul v v))).
Proof. intros HS Hf Hk Ha Ha1 Ha2 HW Hg. exact (flrw_norm m c name xs g gi w HS a ai a1 a2 k r ri s si cos wi Hf Ha HW Hg t tn). Qed.
End Default.
Print Assumptions C195_schwarzschild_computed.
Print Assumptions C195_schwarzschild_weyl.
Print Assumptions C195_schwarzschild_norm.
Print Assumptions C196_flrw_computed.
Print Assumptions C196_flrw_weyl.
Print Assumptions C196_flrw_norm.

(** The two metrics with symbols M and k and a function a, and M/r^3, a''/a and (a'^2 + k)/a^2 are
    not zero. *)
Example ex_C195_schwarzschild :
  @metric_session SphOps def_w 4 1 0 "Schwarzschild" sph_xs sch_g sch_gi /\ @spherical_functions SphOps sph_xs v_r v_ri v_s v_si v_c /\
  @constant_in SphOps sph_xs v_M /\ @keq SphOps (kmul (@horizon_function SphOps v_M v_ri) v_fi) k1 /\
  (forall i j, i < 4 -> j < 4 -> @keq SphOps (sch_g i j) (@schwarzschild SphOps v_M v_r v_ri v_s v_fi i j)) /\
  @known_results SphOps 4 sph_xs sch_g sch_gi def_w 1 0 "Schwarzschild" /\
  (forall j, In j (insts def_w) -> named def_w ("Schwarzschild" ++ " Ricci Tensor") j -> ~ used def_w j) /\
  (named def_w "P" 3 /\ "P"%string <> "TEMP"%string /\
   tensor_value def_w 4 1 0 3 [1; -1; -1; -1]%Z sch_R /\ stored_right def_w 4 0 3 sch_g sch_gi [1; -1; -1; -1]%Z sch_R /\
   cls_of def_w 3 <> Some CMetric /\ forall j, In j (insts def_w) -> ~ named def_w "P Norm Squared" j) /\
  ~ @keq SphOps (@kmul SphOps v_M (@kmul SphOps (@kmul SphOps v_ri v_ri) v_ri)) k0.
Proof.
  split; [exact sch_session|]. split; [exact def_functions|]. split; [exact (def_constant "M" (or_introl eq_refl))|].
  split; [exact sch_horizon|]. split; [intros i j _ _; reflexivity|]. split; [exact sch_known|].
  split; [exact (def_no_ricci "Schwarzschild" (or_introl eq_refl))|]. split; [exact sch_tensor|exact sch_u_not_zero].
Qed.
Example ex_C196_flrw :
  @metric_session SphOps def_w 4 2 0 "FLRW" sph_xs flr_g flr_gi /\ @spherical_functions SphOps sph_xs v_r v_ri v_s v_si v_c /\
  @constant_in SphOps sph_xs v_k /\ @keq SphOps (@kmul SphOps v_a v_ai) k1 /\
  (@depends_on SphOps sph_xs 0 v_a v_a1 /\ @depends_on SphOps sph_xs 0 v_a1 v_a2) /\
  @keq SphOps (kmul (@curvature_function SphOps v_k v_r) v_wi) k1 /\
  (forall i j, i < 4 -> j < 4 -> @keq SphOps (flr_g i j) (@flrw SphOps v_a v_r v_s v_wi i j)) /\
  @known_results SphOps 4 sph_xs flr_g flr_gi def_w 2 0 "FLRW" /\
  (forall j, In j (insts def_w) -> named def_w ("FLRW" ++ " Ricci Tensor") j -> ~ used def_w j) /\
  (named def_w "Q" 4 /\ "Q"%string <> "TEMP"%string /\
   tensor_value def_w 4 2 0 4 [1; -1; -1; -1]%Z flr_R /\ stored_right def_w 4 0 4 flr_g flr_gi [1; -1; -1; -1]%Z flr_R /\
   cls_of def_w 4 <> Some CMetric /\ forall j, In j (insts def_w) -> ~ named def_w "Q Norm Squared" j) /\
  ~ @keq SphOps flr_u k0 /\ ~ @keq SphOps flr_v k0.
Proof.
  split; [exact flr_session|]. split; [exact def_functions|]. split; [exact (def_constant "k" (or_intror eq_refl))|].
  split; [exact flr_inverse|]. split; [exact def_scale|]. split; [exact flr_curvature|]. split; [intros i j _ _; reflexivity|]. split; [exact flr_known|].
  split; [exact (def_no_ricci "FLRW" (or_intror eq_refl))|]. split; [exact flr_tensor|exact flr_not_zero].
Qed.
