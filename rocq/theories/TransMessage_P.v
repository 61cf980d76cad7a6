(** The messages about missing rules. *)
From Verif Require Import Base LexM Alg Arr UtilsM TensorM WorldM SpecWorld World_P Calc_P MessageM SpecMessage SpecMissing TransMessageM SpecTransMessage Missing_P.
Import List.
Local Open Scope nat_scope.

Lemma text_spec a b : rules_message a b = no_rules_text a b.
Proof. reflexivity. Qed.

Lemma word_split (x y u v : text) : ~ In " "%char x -> ~ In " "%char y -> x ++ " "%char :: u = y ++ " "%char :: v -> x = y /\ u = v.
Proof.
  revert y. induction x as [|c x IH]; intros [|d y] Hx Hy H; cbn in H.
  - injection H as H. auto.
  - injection H as H _. destruct Hy. left. auto.
  - injection H as H _. destruct Hx. left. auto.
  - injection H as Hc H. subst d. destruct (IH y) as [-> ->]; [intros I; apply Hx; right; exact I|intros I; apply Hy; right; exact I|exact H|]. auto.
Qed.
Lemma chars_inj a b : list_ascii_of_string a = list_ascii_of_string b -> a = b.
Proof. intros H. rewrite <- (string_of_list_ascii_of_string a), H. apply string_of_list_ascii_of_string. Qed.
Lemma text_tells a b a' b' : one_word a -> one_word a' -> no_rules_text a b = no_rules_text a' b' -> a = a' /\ b = b'.
Proof.
  intros Ha Ha' H. unfold no_rules_text in H. do 3 apply app_inv_head in H.
  destruct (word_split _ _ _ _ Ha Ha' H) as [E1 E2]. split; [apply chars_inj, E1|].
  change ((list_ascii_of_string "and " ++ list_ascii_of_string b) ++ list_ascii_of_string "." = (list_ascii_of_string "and " ++ list_ascii_of_string b') ++ list_ascii_of_string ".") in E2.
  apply app_inv_tail, app_inv_head in E2. apply chars_inj, E2.
Qed.

Lemma names_not_told : exists a b a' b', no_rules_text a b = no_rules_text a' b' /\ a <> a' /\ b <> b'.
Proof. exists "A and B"%string, "C"%string, "A"%string, "B and C"%string. split; [reflexivity|]. split; discriminate. Qed.
Lemma words_met : one_word "XY" /\ one_word "UV".
Proof. split; cbn; intros [H|[H|[]]]; discriminate H. Qed.

Section Trans.
Context {A : AlgOps}.
Variables (w : world) (c c' : oid) (so co : obj).
Hypothesis Hs : obj_of w c = Some so.
Hypothesis Hc : obj_of w c' = Some co.

Lemma rules_member : dmem Nat.eqb c' (o_trans so) = false <-> ~ has_rules w c c'.
Proof.
  unfold dmem. split.
  - intros H (o & Ho & N). rewrite Hs in Ho. injection Ho as <-. destruct (dget Nat.eqb c' (o_trans so)); [discriminate|congruence].
  - intros H. destruct (dget Nat.eqb c' (o_trans so)) eqn:E; [|reflexivity]. destruct H. exists so. split; [exact Hs|congruence].
Qed.

Lemma jacobians_told m : refused_jacobians c c' w = Some m ->
  w_check_jacobians c c' w = (Err ETransformation, w) /\ ~ has_rules w c c' /\ m = no_rules_text (o_name so) (o_name co).
Proof.
  unfold refused_jacobians. rewrite Hs, Hc. destruct (dmem Nat.eqb c' (o_jacs so)) eqn:Ej; [discriminate|].
  destruct (dmem Nat.eqb c' (o_trans so)) eqn:Et; [discriminate|]. intros H. injection H as <-.
  split; [|split; [apply rules_member, Et|reflexivity]].
  unfold w_check_jacobians. rewrite (bind_ok _ _ so w w) by (apply getobj_ok, Hs). rewrite Ej, Et.
  rewrite (bind_ok _ _ co w w) by (apply getobj_ok, Hc). reflexivity.
Qed.
Lemma jacobians_silent w' : w_check_jacobians c c' w = (Err ETransformation, w') -> exists m, refused_jacobians c c' w = Some m.
Proof.
  intros H. unfold refused_jacobians. rewrite Hs, Hc. unfold w_check_jacobians in H. rewrite (bind_ok _ _ so w w) in H by (apply getobj_ok, Hs).
  destruct (dmem Nat.eqb c' (o_jacs so)); [discriminate H|]. destruct (dmem Nat.eqb c' (o_trans so)) eqn:Et; [|eauto]. exfalso.
  unfold w_calculate_jacobian in H. rewrite (bind_ok _ _ so w w) in H by (apply getobj_ok, Hs). rewrite (bind_ok _ _ co w w) in H by (apply getobj_ok, Hc).
  unfold dmem in Et. destruct (dget Nat.eqb c' (o_trans so)) as [R|]; [|discriminate Et]. rewrite (bind_ok _ _ R w w) in H by reflexivity.
  assert (F := jacobian_fine (o_syms so) (o_syms co) R). unfold mbind, mlift in H.
  destruct (calculate_jacobian (o_syms so) (o_syms co) R) as [j|e].
  - match type of H with put ?a ?b w = _ => destruct (put_spec w a so b Hs) as (w2 & E2 & _); rewrite E2 in H; discriminate H end.
  - apply F. congruence.
Qed.

Lemma coords_told t m : cls_of w c' = Some CCoordinates -> lives_in w t c -> refused_coords t c' w = Some m ->
  change_default_coords t c' w = (Err ETransformation, w) /\ ~ has_rules w c c' /\ m = no_rules_text (o_name so) (o_name co).
Proof.
  intros Hk (o & Ho & Hoc). unfold refused_coords. rewrite Hk, Ho, Hoc. destruct (c =? c') eqn:E; [discriminate|]. rewrite Hs, Hc.
  destruct (dmem Nat.eqb c' (o_trans so)) eqn:Et; [discriminate|]. intros H. injection H as <-. split; [|split; [apply rules_member, Et|reflexivity]].
  unfold change_default_coords. rewrite (bind_ok _ _ true w w) by (unfold isinstance; rewrite Hk; reflexivity). cbn [negb].
  rewrite (bind_ok _ _ o w w) by (apply getobj_ok, Ho). rewrite (bind_ok _ _ c w w) by (rewrite Hoc; reflexivity). rewrite E.
  rewrite (bind_ok _ _ so w w) by (apply getobj_ok, Hs). rewrite Et. cbn [negb]. rewrite (bind_ok _ _ co w w) by (apply getobj_ok, Hc). reflexivity.
Qed.
Lemma coords_told_missing t : cls_of w c' = Some CCoordinates -> lives_in w t c -> c <> c' -> ~ has_rules w c c' -> exists m, refused_coords t c' w = Some m.
Proof.
  intros Hk (o & Ho & Hoc) N Hn. unfold refused_coords. rewrite Hk, Ho, Hoc. rewrite (proj2 (Nat.eqb_neq c c') N), Hs, Hc.
  rewrite (proj2 rules_member Hn). eauto.
Qed.
End Trans.
