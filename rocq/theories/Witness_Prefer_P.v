(** Changes of the defaults of a tensor in concrete sessions. *)
From Coq Require Import QArith Qcanon.
From Verif Require Import Alg Alg_P Arr Arr_P Spec TensorM Inst Ex WorldM SpecWorld World_P Registry_P CalcM SpecCalc SpecPrefer Prefer_P ExWorld Witness_World_P Witness_History_P Witness_Calc_P Witness_Product_P Witness_Curv_P Typed_P.
Local Open Scope nat_scope.

Section Check.
Context {A : AlgOps}.
Definition homeb (w : world) (t c : oid) : bool :=
  match obj_of w t, cls_of w t with
  | Some o, Some k => negb (cls_eqb k CCoordinates) && match o_coords o with Some c0 => c0 =? c | None => false end && match dget Nat.eqb c (o_comps o) with Some _ => true | None => false end
  | _, _ => false
  end.
Lemma homeb_spec w t c : homeb w t c = true -> exists o, at_home w t o c.
Proof.
  unfold homeb. destruct (obj_of w t) as [o|] eqn:Ho; [|discriminate]. destruct (cls_of w t) as [k|] eqn:Hk; [|discriminate].
  intros H. apply andb_prop in H as [H H3]. apply andb_prop in H as [H1 H2]. exists o. split; [exact Ho|].
  split; [rewrite Hk; intros E; injection E as ->; discriminate H1|].
  split; [destruct (o_coords o) as [c0|]; [apply Nat.eqb_eq in H2; congruence|discriminate]|]. destruct (dget Nat.eqb c (o_comps o)); [discriminate|discriminate].
Qed.
Definition rulesb (w : world) (c c' : oid) : bool :=
  match obj_of w c with Some o => match dget Nat.eqb c' (o_trans o) with Some _ => true | None => false end | None => false end.
Lemma rulesb_true w c c' : rulesb w c c' = true -> has_rules w c c'.
Proof. unfold rulesb. destruct (obj_of w c) as [o|] eqn:Ho; [|discriminate]. intros H. exists o. split; [exact Ho|]. destruct (dget Nat.eqb c' (o_trans o)); discriminate. Qed.
Lemma rulesb_false w c c' : negb (rulesb w c c') = true -> ~ has_rules w c c'.
Proof. intros H. apply negb_true_iff in H. revert H. unfold rulesb. intros H (o & Ho & N). rewrite Ho in H. destruct (dget Nat.eqb c' (o_trans o)); [discriminate|congruence]. Qed.
Definition outb {X} (m : M X) (w : world) : bool := match fst (m w) with Ok _ => true | Err _ => false end.
Lemma outb_ok {X} (m : M X) w : outb m w = true -> exists x w', m w = (Ok x, w').
Proof. unfold outb. destruct (m w) as [[x|e] w']; [|discriminate]. eauto. Qed.
Lemma outb_err {X} (m : M X) w : negb (outb m w) = true -> exists e w', m w = (Err e, w').
Proof. intros H. apply negb_true_iff in H. revert H. unfold outb. destruct (m w) as [[x|e] w']; [discriminate|]. eauto. Qed.
Definition objb (w : world) (i : oid) : bool := match obj_of w i with Some _ => true | None => false end.
Lemma objb_spec w i : objb w i = true -> exists o, obj_of w i = Some o.
Proof. unfold objb. destruct (obj_of w i); [eauto|discriminate]. Qed.
End Check.

(** The vector moved to u, v, and there is no way back. *)
Definition ex_away_w : @world PolyOps := run_all [OpCoords 3 1] ex_w.
Lemma ex_away_reachable : reachable ex_away_w.
Proof. apply run_all_reachable; [apply ex_w_reachable|vmtrue]. Qed.

Lemma away_witness : exists (w : @world PolyOps) t o c c' a w1, reachable w /\ at_home w t o c /\ cls_of w t = Some CTensor /\ cls_of w c' = Some CCoordinates /\
  get_components t (Some c') None w = (Ok a, w1) /\ change_default_coords t c' w = (Err ETransformation, w).
Proof.
  destruct (homeb_spec ex_away_w 3 1) as (o & Ho); [vmtrue|].
  destruct (outb_ok (get_components 3 (Some 0) None) ex_away_w) as (a & w1 & E); [vmtrue|].
  destruct (objb_spec ex_away_w 0) as (o0 & H0); [vmtrue|]. destruct (objb_spec ex_away_w 1) as (o1 & H1); [vmtrue|].
  assert (C0 : cls_of ex_away_w 0 = Some CCoordinates) by (apply clsb_spec; vmtrue).
  exists ex_away_w, 3, o, 1, 0, a, w1. split; [apply ex_away_reachable|]. split; [exact Ho|]. split; [apply clsb_spec; vmtrue|]. split; [exact C0|]. split; [exact E|].
  apply (Prefer_P.coords_refused ex_away_w 3 o 1 0 o0 Ho); [congruence|exact C0|exact H0|discriminate|apply rulesb_false; vmtrue].
Qed.

Lemma prefer_hyps : exists o o' oc oc', typed ex_w /\ at_home ex_w 3 o 0 /\ at_home ex_w 2 o' 0 /\ cls_of ex_w 3 = Some CTensor /\ cls_of ex_w 2 = Some CMetric /\
  cls_of ex_w 1 = Some CCoordinates /\ obj_of ex_w 0 = Some oc /\ obj_of ex_w 1 = Some oc' /\ has_rules ex_w 0 1 /\ ~ has_rules ex_away_w 1 0 /\ valid_cfg (o_indices o) /\ o_indices o = [1]%Z /\
  (exists a w1, get_components 3 None (Some [-1]%Z) ex_w = (Ok a, w1)) /\ (exists e w1, get_components 3 None (Some [-1; 1]%Z) ex_w = (Err e, w1)) /\
  (exists a w1, get_components 2 None (Some [1; -1]%Z) ex_w = (Ok a, w1)) /\
  (exists a w1, get_components 3 (Some 1) None ex_w = (Ok a, w1)).
Proof.
  destruct (homeb_spec ex_w 3 0) as (o & Ho); [vmtrue|]. destruct (homeb_spec ex_w 2 0) as (o' & Ho'); [vmtrue|].
  destruct (objb_spec ex_w 0) as (o0 & H0); [vmtrue|]. destruct (objb_spec ex_w 1) as (o1 & H1); [vmtrue|].
  assert (I : option_map o_indices (obj_of ex_w 3) = Some [1]%Z) by (vm_compute; reflexivity).
  assert (I' : o_indices o = [1]%Z) by (destruct Ho as (Ho & _); rewrite Ho in I; injection I as I; exact I).
  exists o, o', o0, o1. split; [apply typedb_spec; vmtrue|]. do 2 (split; [assumption|]). do 3 (split; [apply clsb_spec; vmtrue|]). do 2 (split; [assumption|]).
  split; [apply rulesb_true; vmtrue|]. split; [apply rulesb_false; vmtrue|]. split; [rewrite I'; repeat constructor|]. split; [exact I'|].
  split; [apply outb_ok; vmtrue|]. split; [apply outb_err; vmtrue|]. split; apply outb_ok; vmtrue.
Qed.

(** Both rules of a transformation that cannot be computed: its Jacobian is singular. *)
Definition ex_bad_rules : list (string * @K PolyOps) := [("x", pv "u"); ("y", pv "u")]%string.
Definition ex_bad_w : @world PolyOps := run_all [OpAdd 0 (VObj 1) (Some (map REq ex_bad_rules))] ex_w.
Lemma bad_hyps : exists o, typed ex_bad_w /\ at_home ex_bad_w 3 o 0 /\ cls_of ex_bad_w 3 <> Some CMetric /\ valid_cfg (o_indices o) /\ cls_of ex_bad_w 1 = Some CCoordinates /\ has_rules ex_bad_w 0 1 /\
  exists e w1, get_components 3 (Some 1) None ex_bad_w = (Err e, w1).
Proof.
  destruct (homeb_spec ex_bad_w 3 0) as (o & Ho); [vmtrue|].
  assert (I : option_map o_indices (obj_of ex_bad_w 3) = Some [1]%Z) by (vm_compute; reflexivity).
  assert (I' : o_indices o = [1]%Z) by (destruct Ho as (Ho & _); rewrite Ho in I; injection I as I; exact I).
  exists o. split; [apply typedb_spec; vmtrue|]. split; [exact Ho|]. split; [assert (K : cls_of ex_bad_w 3 = Some CTensor) by (apply clsb_spec; vmtrue); rewrite K; discriminate|].
  split; [rewrite I'; repeat constructor|]. split; [apply clsb_spec; vmtrue|]. split; [apply rulesb_true; vmtrue|apply outb_err; vmtrue].
Qed.

(** A metric with upper default indices (object 4), asked for its lower components in u, v, and
    moved there. *)
Definition ex_lost_w : @world PolyOps := run_all [OpGet 4 (Some 1) (Some [-1; -1]%Z); OpCoords 4 1] ex_metrics_w.
Lemma lost_witness : exists (w : @world PolyOps) m o w1, reachable w /\ In m (insts w) /\ obj_of w m = Some o /\ cls_of w m = Some CMetric /\
  get_components m None None w = (Err EKeyError, w1).
Proof.
  destruct (objb_spec ex_lost_w 4) as (o & Ho); [vmtrue|].
  destruct (out_err (get_components 4 None None) EKeyError ex_lost_w) as (w1 & E & _); [vmtrue|].
  exists ex_lost_w, 4, o, w1. split; [apply run_all_reachable; [apply ex_metrics_reachable|vmtrue]|].
  split; [assert (I : existsb (Nat.eqb 4) (insts ex_lost_w) = true) by vmtrue; apply existsb_exists in I as (x & I & X); apply Nat.eqb_eq in X; subst x; exact I|].
  split; [exact Ho|]. split; [apply clsb_spec; vmtrue|exact E].
Qed.
Lemma away_tensor : exists o, reachable ex_away_w /\ obj_of ex_away_w 3 = Some o /\ cls_of ex_away_w 3 <> Some CCoordinates /\ cls_of ex_away_w 3 <> Some CMetric.
Proof.
  destruct (objb_spec ex_away_w 3) as (o & Ho); [vmtrue|]. assert (K : cls_of ex_away_w 3 = Some CTensor) by (apply clsb_spec; vmtrue).
  exists o. split; [apply ex_away_reachable|]. split; [exact Ho|]. rewrite K. split; discriminate.
Qed.
