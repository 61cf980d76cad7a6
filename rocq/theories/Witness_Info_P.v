(** Concrete sessions for the properties of info(). *)
From Coq Require Import QArith Qcanon.
From Verif Require Import Alg Alg_P Arr Arr_P Spec UtilsM Arr2_P TensorM Inst Ex WorldM SpecWorld World_P Registry_P ExWorld Witness_World_P InfoM SpecInfo Info_P.
Local Open Scope nat_scope.

Definition nat_listb (l l' : list nat) : bool := if list_eq_dec Nat.eq_dec l l' then true else false.
Lemma nat_listb_spec l l' : nat_listb l l' = true -> l = l'.
Proof. unfold nat_listb. destruct (list_eq_dec _ l l'); [auto|discriminate]. Qed.
Definition refusedb (r : res unit) : bool := match r with Err EPermissionError => true | _ => false end.
Definition liveat (w : @world PolyOps) (i : oid) : bool := match obj_of w i with Some _ => true | None => false end.

(** The coordinates u, v, the metric and the vector of ex_w. *)
Lemma ex_info_case : reachable ex_w /\ In 0 (insts ex_w) /\ In 2 (insts ex_w) /\ In 3 (insts ex_w) /\
  (exists o, obj_of ex_w 2 = Some o) /\ cls_of ex_w 0 = Some CCoordinates /\ cls_of ex_w 2 = Some CMetric /\ cls_of ex_w 3 = Some CTensor /\
  users_in ex_w o_coords 0 = [2; 3] /\ users_in ex_w o_metric 2 = [2; 3].
Proof.
  split; [apply ex_w_reachable|]. split; [apply inb_list_spec; vmtrue|]. split; [apply inb_list_spec; vmtrue|]. split; [apply inb_list_spec; vmtrue|].
  split; [assert (H : liveat ex_w 2 = true) by vmtrue; unfold liveat in H; destruct (obj_of ex_w 2) as [o|]; [exists o; reflexivity|discriminate H]|].
  do 3 (split; [vm_compute; reflexivity|]). split; apply nat_listb_spec; vmtrue.
Qed.

(** No tensor uses the metric of this session, and the metric lists itself. *)
Lemma ex_unused_metric : exists w : @world PolyOps, reachable w /\ exists t, In t (insts w) /\ cls_of w t = Some CMetric /\
  (forall i o, In i (insts w) -> i <> t -> obj_of w i = Some o -> ~ refers o t) /\
  users_in w o_metric t = [t].
Proof.
  exists ex_three_w. split; [apply start_reachable; vmtrue|]. exists 1. split; [apply inb_list_spec; vmtrue|]. split; [vm_compute; reflexivity|].
  split; [|apply nat_listb_spec; vmtrue]. intros i o Hi N Ho H.
  assert (E : insts ex_three_w = [0; 1]) by (apply nat_listb_spec; vmtrue). rewrite E in Hi. destruct Hi as [<-|[<-|[]]]; [|congruence].
  assert (B : match obj_of ex_three_w 0 with Some o => negb (inb_list 1 (map fst (o_comps o)) || inb_list 1 (map fst (o_trans o)) ||
    match o_metric o with Some j => j =? 1 | None => false end || match o_coords o with Some j => j =? 1 | None => false end) | None => true end = true) by vmtrue.
  rewrite Ho in B. apply negb_true_iff in B. apply orb_false_elim in B as [B B4]. apply orb_false_elim in B as [B B3]. apply orb_false_elim in B as [B1 B2].
  assert (G : forall l, In 1 l -> inb_list 1 l = true) by (intros l Hl; apply existsb_exists; exists 1; split; [exact Hl|reflexivity]).
  destruct H as [H|[H|[H|H]]].
  - rewrite (G _ H) in B1. discriminate B1.
  - rewrite H in B3. discriminate B3.
  - rewrite H in B4. discriminate B4.
  - rewrite (G _ H) in B2. discriminate B2.
Qed.

(** Nothing is listed for the coordinates u, v, and they cannot be deleted. *)
Lemma ex_unlisted_kept : exists w : @world PolyOps, reachable w /\ exists t, In t (insts w) /\ cls_of w t = Some CCoordinates /\
  users_in w o_coords t = [] /\ users_in w o_metric t = [] /\ forall silent, delete t silent w = (Err EPermissionError, w).
Proof.
  exists ex_w. split; [apply ex_w_reachable|]. exists 1. split; [apply inb_list_spec; vmtrue|]. split; [vm_compute; reflexivity|].
  split; [apply nat_listb_spec; vmtrue|]. split; [apply nat_listb_spec; vmtrue|]. intros silent.
  apply delete_used; [apply reachable_integrity, ex_w_reachable|apply inb_list_spec; vmtrue|].
  assert (H : match obj_of ex_w 0 with Some o => inb_list 1 (map fst (o_trans o)) | None => false end = true) by vmtrue.
  destruct (obj_of ex_w 0) as [o|] eqn:Eo; [|discriminate H]. exists 0, o. split; [apply inb_list_spec; vmtrue|]. split; [discriminate|].
  split; [exact Eo|]. right. right. right. apply inb_list_spec, H.
Qed.
