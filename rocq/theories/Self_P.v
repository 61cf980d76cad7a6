(** In every reachable session every metric is its own metric. *)
From Verif Require Import Alg Alg_P Arr Arr_P Spec UtilsM Arr2_P TensorM WorldM SpecWorld World_P Registry_P History_P CalcM SpecCalc Keep_P Calc_P Typed_P.
Local Open Scope nat_scope.

Section Self.
Context {A : AlgOps}.

Definition selfm (w : world) : Prop := forall i o, obj_of w i = Some o -> cls_of w i = Some CMetric -> o_metric o = Some i.

Lemma carried_self w w' : carried w w' -> selfm w -> selfm w'.
Proof. intros [Hc Ho] S i o' Hi. destruct (Ho i o' Hi) as (o & H & _ & ->). rewrite Hc. apply S, H. Qed.

Lemma fresh_self w k o : selfm w -> (k = CMetric -> o_metric o = Some (length (heap w))) -> selfm (fresh_world w k o).
Proof.
  intros S Hm i oi. rewrite obj_of_fresh. destruct (Nat.eqb_spec i (length (heap w))) as [->|N].
  - intros E. injection E as <-. rewrite cls_fresh_new. intros K. apply Hm. congruence.
  - intros H. rewrite cls_of_fresh by exact N. apply S, H.
Qed.

Lemma run_op_self w (o : op) : typed w -> selfm w -> selfm (snd (run_op o w)).
Proof.
  intros Hty S0.
  assert (Tn : forall k n c m x i s, k <> CMetric -> selfm (snd ((new_tensor_as k n c m x i s ;; mret tt) w))).
  { intros k n c m x i s Nk. unfold mbind. destruct (new_tensor_spec k n c m x i s w) as [[e E]|(m' & c' & a & y & Hm & Hmc & Hc & Hcc & Ha & Hx & Hv & E)]; rewrite E; [exact S0|].
    cbn [snd mret]. apply fresh_self; [exact S0|congruence]. }
  destruct o as [n c i s tr|n c x i s|n c m x i s|n c m x i s|n c m x i s|n c m x i s|self c r|t c i|t i|t c|t n|t n|t|t silent]; cbn [run_op];
    try (apply Tn; discriminate).
  - unfold mbind. destruct (new_coordinates_spec n c i s tr w) as [[e E]|(a & Ha & Hr & E)]; rewrite E; [exact S0|].
    cbn [snd mret]. apply fresh_self; [exact S0|discriminate].
  - unfold mbind. destruct (new_metric_cases n c x i s w) as [[e E]|(c' & o & w' & r & Hc & Hk & E & Hw' & H1 & H2 & H3 & H4 & Hr & Hl)]; rewrite E; [exact S0|].
    assert (S1 : selfm w').
    { rewrite Hw'. apply fresh_self; [exact S0|]. intros _. exact H2. }
    destruct r; exact S1.
  - eapply carried_self; [|exact S0]. unfold add_coord_transformation. destruct c; try apply carried_refl.
    unfold mbind at 1, isinstance. destruct (negb _); [apply carried_refl|]. destruct (self =? i); [apply carried_refl|].
    unfold mbind, getobj. destruct (obj_of w self) as [o|] eqn:Eo; [|apply carried_refl].
    destruct r; [destruct (forallb _ _)|destruct (dmem _ _ _)]; try apply carried_refl; apply (put_carried _ _ _ _ Eo); reflexivity.
  - eapply carried_self; [|exact S0]. unfold mbind. destruct (get_components t c i w) as [r w'] eqn:E.
    pose proof (kept_carried _ _ (get_components_kept _ _ _ _ _ _ Hty E)). destruct r; assumption.
  - unfold change_default_indices. unfold mbind at 1, getobj. destruct (obj_of w t) as [o|] eqn:Eo; [|exact S0].
    unfold mbind at 1, mlift. destruct (validate_indices _ _ _); [|exact S0].
    destruct (o_coords o) as [c|]; [|exact S0]. unfold mbind at 1, mopt, mret. unfold mbind at 1.
    pose proof (check_rep_keep w Hty t c i w (kept_refl w)) as H. destruct (check_representation t c i w) as [[b|e] w'].
    2:{ exact (carried_self _ _ (kept_carried _ _ H) S0). }
    pose proof (carried_self _ _ (kept_carried _ _ H) S0) as S1. destruct b; [|exact S1].
    unfold mbind, getobj. destruct (obj_of w' t) as [o'|] eqn:Eo'; [|exact S1].
    eapply carried_self; [|exact S1]. apply (put_carried _ _ _ _ Eo'); reflexivity.
  - unfold change_default_coords. unfold mbind at 1, isinstance. destruct (cls_of w c) as [k|] eqn:Ek; [|exact S0].
    destruct (cls_eqb CCoordinates k) eqn:Ec; cbn [negb]; [|exact S0].
    assert (k = CCoordinates) by (destruct k; try discriminate; reflexivity). subst k.
    unfold mbind at 1, getobj. destruct (obj_of w t) as [o|] eqn:Eo; [|exact S0].
    destruct (o_coords o) as [c0|]; [|exact S0]. cbn [mopt]. unfold mbind at 1, mret at 1. destruct (c0 =? c); [exact S0|].
    unfold mbind at 1. destruct (obj_of w c0) as [co|]; [|exact S0]. destruct (negb _).
    { unfold mbind. destruct (obj_of w c); exact S0. }
    unfold mbind at 1.
    pose proof (check_rep_keep w Hty t c (o_indices o) w (kept_refl w)) as H. destruct (check_representation t c (o_indices o) w) as [[b|e] w'].
    2:{ exact (carried_self _ _ (kept_carried _ _ H) S0). }
    assert (H2 : hoare (kept w) (if b then mret tt else transform_coordinates t c (o_indices o)) (fun _ => kept w) (kept w)).
    { destruct b; [apply h_ret; auto|apply transform_coords_keep, Hty]. }
    unfold mbind at 1. specialize (H2 w' H). destruct ((if b then mret tt else transform_coordinates t c (o_indices o)) w') as [[u|e] w2].
    2:{ exact (carried_self _ _ (kept_carried _ _ H2) S0). }
    pose proof (carried_self _ _ (kept_carried _ _ H2) S0) as S2. unfold mbind. destruct (obj_of w2 t) as [o2|] eqn:Eo2; [|exact S2].
    destruct (put_spec w2 t o2 (set_coords (Some c) o2) Eo2) as (w3 & E & _ & _ & Hc & Hj). rewrite E. cbn [snd].
    intros j oj; rewrite Hj, Hc; destruct (Nat.eqb_spec t j) as [<-|N]; [|apply S2].
    intros U. injection U as <-. cbn [set_coords o_metric]. apply S2, Eo2.
  - unfold change_name. destruct n; try exact S0. unfold mbind, getobj. destruct (obj_of w t) as [o|] eqn:Eo; [|exact S0].
    eapply carried_self; [|exact S0]. apply (put_carried _ _ _ _ Eo); reflexivity.
  - unfold change_symbol. destruct n; try exact S0; (unfold mbind, getobj; destruct (obj_of w t) as [o|] eqn:Eo; [|exact S0];
      eapply carried_self; [|exact S0]; apply (put_carried _ _ _ _ Eo); reflexivity).
  - eapply carried_self; [|exact S0]. apply simplify_carried.
  - eapply carried_self; [|exact S0]. apply delete_carried.
Qed.

Theorem reachable_self w : reachable w -> selfm w.
Proof.
  intros H. induction H as [|w o Hr IH HL]; [|apply run_op_self; [apply reachable_sound, Hr|exact IH]].
  intros i o H; unfold obj_of, empty_world in H; destruct i; discriminate.
Qed.

(** What the proofs about single states use. *)
Definition healthy (w : world) : Prop := integrity w /\ sound w /\
  forall m o, In m (insts w) -> obj_of w m = Some o -> cls_of w m = Some CMetric -> o_metric o = Some m.
Lemma reachable_healthy w : reachable w -> healthy w.
Proof.
  intros R. split; [apply reachable_integrity, R|]. split; [apply reachable_sound, R|]. intros m o _ Ho K. exact (reachable_self w R m o Ho K).
Qed.

End Self.
