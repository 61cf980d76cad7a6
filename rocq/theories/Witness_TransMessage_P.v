(** Messages about missing rules in concrete sessions. *)
From Coq Require Import QArith Qcanon.
From Verif Require Import Alg Arr Spec TensorM Inst Ex Arr_P WorldM SpecWorld World_P ExWorld Witness_Tensor_P Witness_World_P Witness_History_P Witness_Calc_P Witness_Curv_P Witness_Prefer_P Witness_Missing_P MessageM SpecMessage SpecMissing TransMessageM SpecTransMessage TransMessage_P.
Local Open Scope nat_scope.

(** Coordinates x, y (object 0) and two systems with the name UV (objects 1 and 2); a metric in x, y
    (object 3). *)
Definition ex_twins_ops : list (@op PolyOps) :=
  [OpCoordinates (ex_str "XY") (VSyms [2] ex_xs) (VTuple [1]%Z) (ex_str "x") [];
   OpCoordinates (ex_str "UV") (VSyms [2] ex_ys) (VTuple [1]%Z) (ex_str "u") [];
   OpCoordinates (ex_str "UV") (VSyms [2] ["a"; "b"]%string) (VTuple [1]%Z) (ex_str "a") [];
   OpMetric (ex_str "g") (VArr ex_g) (VObj 0) (VTuple [-1; -1]%Z) (ex_str "g")].
Definition ex_twins_w : @world PolyOps := run_all ex_twins_ops empty_world.
Lemma ex_twins_reachable : reachable ex_twins_w.
Proof. apply run_all_reachable; [constructor|vmtrue]. Qed.

(** The names of the three systems, and no rules *)
Definition namedb (w : @world PolyOps) (i : oid) (s : string) : bool :=
  obj_view w i (fun o => String.eqb (o_name o) s && match o_trans o, o_jacs o with [], [] => true | _, _ => false end) false.
Lemma namedb_spec w i s : namedb w i s = true -> exists o, obj_of w i = Some o /\ o_name o = s /\ o_trans o = [] /\ o_jacs o = [].
Proof.
  unfold namedb, obj_view. destruct (obj_of w i) as [o|]; [|discriminate]. intros H. apply andb_prop in H as [H1 H2]. apply String.eqb_eq in H1.
  exists o. destruct (o_trans o); [|discriminate]. destruct (o_jacs o); [|discriminate]. auto.
Qed.

Lemma twins_witness : exists (w : @world PolyOps) t c c1 c2 m w1 w2, reachable w /\ lives_in w t c /\ c1 <> c2 /\
  change_default_coords t c1 w = (Err ETransformation, w1) /\ change_default_coords t c2 w = (Err ETransformation, w2) /\
  refused_coords t c1 w = Some m /\ refused_coords t c2 w = Some m.
Proof.
  destruct (namedb_spec ex_twins_w 0 "XY") as (o0 & H0 & N0 & T0 & _); [vmtrue|].
  destruct (namedb_spec ex_twins_w 1 "UV") as (o1 & H1 & N1 & _); [vmtrue|].
  destruct (namedb_spec ex_twins_w 2 "UV") as (o2 & H2 & N2 & _); [vmtrue|].
  assert (K1 : cls_of ex_twins_w 1 = Some CCoordinates) by (apply clsb_spec; vmtrue).
  assert (K2 : cls_of ex_twins_w 2 = Some CCoordinates) by (apply clsb_spec; vmtrue).
  destruct (homeb_spec ex_twins_w 3 0) as (o & Ho); [vmtrue|]. apply home_lives in Ho.
  assert (R : forall c', ~ has_rules ex_twins_w 0 c').
  { intros c' (o' & Ho' & N). assert (o' = o0) by congruence. subst o'. rewrite T0 in N. apply N. reflexivity. }
  destruct (coords_told_missing ex_twins_w 0 1 o0 o1 H0 H1 3 K1 Ho ltac:(discriminate) (R 1)) as [m1 M1].
  destruct (coords_told_missing ex_twins_w 0 2 o0 o2 H0 H2 3 K2 Ho ltac:(discriminate) (R 2)) as [m2 M2].
  destruct (coords_told ex_twins_w 0 1 o0 o1 H0 H1 3 m1 K1 Ho M1) as (E1 & _ & T1).
  destruct (coords_told ex_twins_w 0 2 o0 o2 H0 H2 3 m2 K2 Ho M2) as (E2 & _ & T2).
  assert (m2 = m1) by congruence. subst m2.
  exists ex_twins_w, 3, 0, 1, 2, m1, ex_twins_w, ex_twins_w. split; [apply ex_twins_reachable|]. split; [exact Ho|]. split; [discriminate|]. auto.
Qed.

Lemma twins_hyps : exists so co, obj_of ex_twins_w 0 = Some so /\ obj_of ex_twins_w 1 = Some co /\ cls_of ex_twins_w 1 = Some CCoordinates /\ lives_in ex_twins_w 3 0 /\
  ~ has_rules ex_twins_w 0 1 /\ (exists m, refused_coords 3 1 ex_twins_w = Some m) /\ (exists m, refused_jacobians 0 1 ex_twins_w = Some m) /\
  o_name so = "XY"%string /\ o_name co = "UV"%string.
Proof.
  destruct (namedb_spec ex_twins_w 0 "XY") as (o0 & H0 & N0 & T0 & J0); [vmtrue|].
  destruct (namedb_spec ex_twins_w 1 "UV") as (o1 & H1 & N1 & _); [vmtrue|].
  assert (K1 : cls_of ex_twins_w 1 = Some CCoordinates) by (apply clsb_spec; vmtrue).
  destruct (homeb_spec ex_twins_w 3 0) as (o & Ho); [vmtrue|]. apply home_lives in Ho.
  assert (R : ~ has_rules ex_twins_w 0 1).
  { intros (o' & Ho' & N). assert (o' = o0) by congruence. subst o'. rewrite T0 in N. apply N. reflexivity. }
  exists o0, o1. split; [exact H0|]. split; [exact H1|]. split; [exact K1|]. split; [exact Ho|]. split; [exact R|].
  split; [exact (coords_told_missing ex_twins_w 0 1 o0 o1 H0 H1 3 K1 Ho ltac:(discriminate) R)|]. split; [|auto].
  unfold refused_jacobians. rewrite H0, H1, J0, T0. eexists. reflexivity.
Qed.
