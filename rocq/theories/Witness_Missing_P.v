(** Missing rules in concrete sessions. *)
From Coq Require Import QArith Qcanon.
From Verif Require Import Alg Alg_P Arr Arr_P Spec TensorM Inst Ex WorldM SpecWorld World_P Registry_P CalcM SpecCalc SpecMissing ExWorld Witness_World_P Witness_History_P Witness_Calc_P Witness_Product_P Witness_Curv_P Witness_Prefer_P Typed_P Missing_P.
Local Open Scope nat_scope.

(** A metric in x, y (object 2) and a vector in u, v (object 3), with rules from u, v to x, y only. *)
Definition ex_mixed_ops : list (@op PolyOps) :=
  [OpCoordinates (ex_str "XY") (VSyms [2] ex_xs) (VTuple [1]%Z) (ex_str "x") [];
   OpCoordinates (ex_str "UV") (VSyms [2] ex_ys) (VTuple [1]%Z) (ex_str "u") [];
   OpAdd 1 (VObj 0) (Some (map REq ex_back));
   OpMetric (ex_str "g") (VArr ex_g) (VObj 0) (VTuple [-1; -1]%Z) (ex_str "g");
   OpTensor (ex_str "V") (VArr ex_vec) (VObj 2) (VObj 1) (VTuple [1]%Z) (ex_str "V")].
Definition ex_mixed_w : @world PolyOps := run_all ex_mixed_ops empty_world.
Lemma ex_mixed_reachable : reachable ex_mixed_w.
Proof. apply run_all_reachable; [constructor|vmtrue]. Qed.

Section Check.
Context {A : AlgOps}.
Lemma home_lives w t c o : at_home w t o c -> lives_in w t c.
Proof. intros (Ho & _ & Hc & _). exists o. auto. Qed.
End Check.

Lemma mixed_witness : exists (w : @world PolyOps) t c c' i w1 w2 w3 e, reachable w /\ cls_of w t = Some CTensor /\ lives_in w t c /\ has_rules w c c' /\
  get_components t (Some c') (Some i) w = (Err ETransformation, w1) /\ change_default_indices t i w = (Err ETransformation, w2) /\
  get_components t (Some c') None w = (Ok e, w3).
Proof.
  destruct (homeb_spec ex_mixed_w 3 1) as (o & Ho); [vmtrue|].
  destruct (out_err (get_components 3 (Some 0) (Some [-1]%Z)) ETransformation ex_mixed_w) as (w1 & E & _); [vmtrue|].
  destruct (out_err (change_default_indices 3 [-1]%Z) ETransformation ex_mixed_w) as (w2 & E2 & _); [vmtrue|].
  destruct (outb_ok (get_components 3 (Some 0) None) ex_mixed_w) as (a & w3 & E3); [vmtrue|].
  exists ex_mixed_w, 3, 1, 0, [-1]%Z, w1, w2, w3, a. split; [apply ex_mixed_reachable|]. split; [apply clsb_spec; vmtrue|]. split; [exact (home_lives _ _ _ _ Ho)|].
  split; [apply rulesb_true; vmtrue|]. auto.
Qed.
Lemma missing_hyps : typed ex_away_w /\ cls_of ex_away_w 3 = Some CTensor /\ typed ex_mixed_w /\ cls_of ex_mixed_w 2 = Some CMetric /\
  (exists w', change_default_coords 3 0 ex_away_w = (Err ETransformation, w')) /\ (exists w', get_components 2 (Some 1) None ex_mixed_w = (Err ETransformation, w')) /\
  (exists w', change_default_coords 2 1 ex_mixed_w = (Err ETransformation, w')) /\
  (exists w', get_components 3 (Some 0) (Some [-1]%Z) ex_mixed_w = (Err ETransformation, w')) /\ (exists w', change_default_indices 3 [-1]%Z ex_mixed_w = (Err ETransformation, w')).
Proof.
  split; [apply typedb_spec; vmtrue|]. split; [apply clsb_spec; vmtrue|]. split; [apply typedb_spec; vmtrue|]. split; [apply clsb_spec; vmtrue|].
  destruct (out_err (change_default_coords 3 0) ETransformation ex_away_w) as (w1 & E1 & _); [vmtrue|].
  destruct (out_err (get_components 2 (Some 1) None) ETransformation ex_mixed_w) as (w2 & E2 & _); [vmtrue|].
  destruct (out_err (change_default_coords 2 1) ETransformation ex_mixed_w) as (w3 & E3 & _); [vmtrue|].
  destruct (out_err (get_components 3 (Some 0) (Some [-1]%Z)) ETransformation ex_mixed_w) as (w4 & E4 & _); [vmtrue|].
  destruct (out_err (change_default_indices 3 [-1]%Z) ETransformation ex_mixed_w) as (w5 & E5 & _); [vmtrue|].
  split; [exists w1; exact E1|]. split; [exists w2; exact E2|]. split; [exists w3; exact E3|]. split; [exists w4; exact E4|exists w5; exact E5].
Qed.
Lemma found_hyps : typed ex_mixed_w /\ exists a w', get_components 3 (Some 0) None ex_mixed_w = (Ok a, w').
Proof. split; [apply typedb_spec; vmtrue|apply outb_ok; vmtrue]. Qed.
