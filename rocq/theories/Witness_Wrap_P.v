(** Constructors and methods with default arguments in concrete sessions. *)
From Coq Require Import QArith Ascii.
From Verif Require Import Base Alg Alg_P Arr Arr_P Spec TensorM Inst Ex WorldM SpecWorld World_P Registry_P Typed_P ExWorld Witness_World_P
  LexM ParseM InterpM SpecParse Term2_P Calc_P Witness_Calc_P ExportM SpecExport Export7_P Export8_P ExExport Witness_Export_P Witness2_Export_P WrapM Wrap_P Wrap2_P.
Import List.
Local Open Scope nat_scope.

(** Coordinates made with None for the indices. *)
Definition ex_none_w : @world PolyOps :=
  run_all [OpCoordinates (ex_str "XY") (VSyms [2] ex_xs) VNone (ex_str "x") []] empty_world.
Lemma ex_none_reachable : reachable ex_none_w.
Proof. apply start_reachable. vmtrue. Qed.

Lemma none_witness :
  exists (w : @world PolyOps) i o s, reachable w /\ coordinate_system w i 2 /\ obj_of w i = Some o /\ o_indices o = [-1]%Z /\
    export_to_string i w = (Ok s, w) /\ ends (fun f => import_from_string f s) w (Err EException, w).
Proof.
  destruct (failsb_spec ex_none_w 0 EException) as (s & E1 & E2); [apply reachable_integrity, ex_none_reachable|vmtrue|].
  exists ex_none_w, 0, (look ex_none_w 0), s. split; [apply ex_none_reachable|]. split; [apply systemb_spec; vmtrue|]. split; [apply look_spec; vmtrue|].
  split; [apply cfg_eqb_spec; vmtrue|]. split; [exact E1|exact E2].
Qed.

(** Twice the same symbol; no symbol at all; a rule that is none. *)
Lemma accepted_witness :
  (exists i w', py_new_coordinates (ex_str "C") (@VSyms PolyOps [2] ["x"; "x"]%string) None None None ex_w = (Ok i, w')) /\
  (exists a i w', py_new_coordinates (ex_str "C") (VArr a) None None None ex_w = (Ok i, w') /\
     forall k s, k < length (data a) -> nth k (data a) k0 <> @ksym PolyOps s) /\
  (exists i w', py_new_coordinates (ex_str "C") (VSyms [2] ex_xs) (Some VNone) None (Some [(1, [RBad])]) ex_w = (Ok i, w')).
Proof.
  split; [|split].
  - apply py_new_coordinates_ok. split; [eexists; reflexivity|]. eexists. split; [right; eexists _, _; split; reflexivity|]. reflexivity.
  - set (a := mkArr [1] [@k1 PolyOps]).
    destruct (proj2 (proj1 (py_new_coordinates_ok ex_w (ex_str "C") (VArr a)))) as (i & w' & E).
    { split; [eexists; reflexivity|]. exists a. split; [left; reflexivity|reflexivity]. }
    exists a, i, w'. split; [exact E|]. intros k s Hk. destruct k as [|k]; [|cbn in Hk; lia]. cbn. discriminate.
  - apply new_coordinates_valid. eexists. split; [right; eexists _, _; split; reflexivity|]. split; [reflexivity|]. split; [eexists; reflexivity|].
    split; [eexists; right; reflexivity|]. left. reflexivity.
Qed.

(** The metric of the session and its coordinates. *)
Lemma ex_wrap_hypotheses :
  cls_of ex_w 2 = Some CMetric /\ (exists o, obj_of ex_w 2 = Some o /\ o_coords o = Some 0) /\ coordinate_system ex_w 0 2 /\
  (forall a, array_like (VMat ex_mat) a -> awf a) /\
  (exists w1, change_default_coords 2 1 ex_w = (Ok tt, w1) /\
     exists i w', metric_new_tensor 2 (ex_str "T") (VMat ex_mat) None None None w1 = (Ok i, w')) /\
  (exists i w', coords_new_metric 0 (ex_str "h") (VArr ex_g) None None ex_w = (Ok i, w')) /\
  ~ (exists i w', coords_new_metric 0 (ex_str "h") (VArr (mkArr [2; 2] [k1; k1; k0; k1])) None None ex_w = (Ok i, w')).
Proof.
  split; [apply clsb_spec; vmtrue|]. split.
  { exists (look ex_w 2). split; [apply look_spec; vmtrue|].
    assert (H : match o_coords (look ex_w 2) with Some c => c =? 0 | None => false end = true) by vmtrue.
    destruct (o_coords (look ex_w 2)) as [c|]; [|discriminate]. apply Nat.eqb_eq in H. rewrite H. reflexivity. }
  split; [apply systemb_spec; vmtrue|]. split.
  { intros a [H|[H|(sh & l & H & _)]]; try discriminate. injection H as <-. reflexivity. }
  split.
  { destruct (out_ok (change_default_coords 2 1) ex_w) as ([] & w1 & E & Ew); [vmtrue|]. exists w1. split; [exact E|].
    destruct (out_ok (metric_new_tensor 2 (ex_str "T") (VMat ex_mat) None None None) (snd (change_default_coords 2 1 ex_w))) as (i & w' & E' & _); [vmtrue|]. subst w1. eauto. }
  split.
  { destruct (out_ok (coords_new_metric 0 (ex_str "h") (VArr ex_g) None None) ex_w) as (i & w' & E' & _); [vmtrue|]. eauto. }
  intros (i & w' & E). assert (H : is_err EValueError (fst (coords_new_metric 0 (ex_str "h") (VArr (mkArr [2; 2] [k1; k1; k0; k1])) None None ex_w)) = true) by vmtrue.
  rewrite E in H. discriminate.
Qed.
