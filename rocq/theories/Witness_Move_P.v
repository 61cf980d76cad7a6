(** Minkowski's metric in spherical coordinates in a concrete session. *)
From Coq Require Import QArith Qcanon.
From Verif Require Import Alg Alg_P Arr Arr_P Spec TensorM Inst InstSph WorldM SpecWorld World_P Registry_P CalcM SpecCalc CurvM SpecCurv SpecDefault SpecStart SpecMove DefaultsM Start_P StartDefault_P ExWorld Witness_World_P Witness_History_P Witness_Volume_P Witness_Default_P Witness_Start_P.
Local Open Scope nat_scope.

Lemma rels_put R v s x : In s ["x"; "y"; "z"]%string -> rels R v -> rels R (fun t => if String.eqb s t then x else v t).
Proof.
  intros Hs [A1 A2 A3 A4 A5 A6 A7]. destruct Hs as [<-|[<-|[<-|[]]]]; constructor; cbn in *; assumption.
Qed.
Lemma sph_substitutable s : In s ["x"; "y"; "z"]%string -> @substitutable SphOps s.
Proof.
  intros Hs. split; [|split; [|split]].
  - intros q x y H R v U. change (@ksub1 SphOps) with psubs. rewrite !psubs_val. apply H, rels_put; assumption.
  - intros q x y R v U. reflexivity.
  - intros q x y R v U. reflexivity.
  - intros q R v U. reflexivity.
Qed.
Lemma sph_free s : In s ["x"; "y"; "z"]%string -> @free_of SphOps s (ksym "r") /\ @free_of SphOps s (f_sin sph_functions (ksym "theta")).
Proof.
  assert (E : f_sin sph_functions (@ksym SphOps "theta") = v_s) by (vm_compute; reflexivity). rewrite E.
  intros Hs. destruct Hs as [<-|[<-|[<-|[]]]]; split; (split; [intros R v U; reflexivity|intros q R v U; reflexivity]).
Qed.
Lemma sph_move s : In s ["x"; "y"; "z"]%string -> @substitutable SphOps s /\ @free_of SphOps s (ksym "r") /\ @free_of SphOps s (f_sin sph_functions (ksym "theta")).
Proof. intros Hs. exact (conj (sph_substitutable s Hs) (sph_free s Hs)). Qed.
Lemma sph_azimuth : let F := sph_functions in @azimuth_functions SphOps sph_xs (f_sin F (ksym "phi")) (f_cos F (ksym "phi")).
Proof.
  assert (D : forall q e d, forallb (fun p => @a_same SphOps (@kdiff SphOps (nth p sph_xs ""%string) e) (if p =? q then d else @k0 SphOps)) (seq 0 4) = true -> @depends_on SphOps sph_xs q e d).
  { intros q e d H p Hp. rewrite forallb_forall in H. apply a_same_spec, H, in_seq. cbn in Hp. lia. }
  cbv zeta. split; [apply a_same_spec; vmtrue|]. split; apply D; vmtrue.
Qed.
(** The call succeeds. *)
Section Run.
Context {A : AlgOps}.
Definition move_result (F : functions) (w : world) : bool :=
  match import_defaults F w with
  | (Ok d, w') => match fst (change_default_coords (d_minkowski d) (d_spherical d) w') with Ok _ => true | Err _ => false end
  | (Err _, _) => false
  end.
Lemma move_result_spec F w : move_result F w = true ->
  exists d w' w2, import_defaults F w = (Ok d, w') /\ change_default_coords (d_minkowski d) (d_spherical d) w' = (Ok tt, w2).
Proof.
  unfold move_result. destruct (import_defaults F w) as [[d|e] w']; [|discriminate].
  destruct (change_default_coords (d_minkowski d) (d_spherical d) w') as [[[]|e] w2] eqn:E2; [|discriminate]. eauto.
Qed.
End Run.
Lemma move_true : @move_result SphOps sph_functions def_w = true.
Proof. vmtrue. Qed.
Lemma move_runs : exists d w' w2, @import_defaults SphOps sph_functions def_w = (Ok d, w') /\ @change_default_coords SphOps (d_minkowski d) (d_spherical d) w' = (Ok tt, w2).
Proof. exact (@move_result_spec SphOps sph_functions def_w move_true). Qed.

(** The hypotheses on a metric and its new coordinates, of Minkowski's metric after the import. *)
Lemma move_session : exists w m c name xs g gi c' ys R w',
  @metric_session SphOps w 4 m c name xs g gi /\ @chart SphOps w 4 c' ys /\ c <> c' /\ @only_in SphOps w m c /\ @new_rules SphOps w c c' R /\
  NoDup (map fst R) /\ length R = 3 /\ (forall s, In s (map fst R) -> @substitutable SphOps s) /\ @change_default_coords SphOps m c' w = (Ok tt, w').
Proof.
  destruct move_runs as (d & w' & w2 & E & Em).
  destruct (import_defaults_run sph_functions def_w def_order def_arrays) as (d' & w1 & g1 & g2 & g3 & E' & _ & _ & _ & (oc & Hoc & Tc & Jc) & _ & S1 & S2 & S3 & Hn & _ & One).
  assert (Q : (@Ok (@defaults) d, w') = (Ok d', w1)) by (rewrite <- E, <- E'; reflexivity). injection Q as Q1 Q2. subst d' w1.
  destruct (session_chart _ _ _ _ _ _ _ _ S2) as [_ Ch].
  exists w', (d_minkowski d), (d_cartesian d), "4D Minkowski"%string, ["t"; "x"; "y"; "z"]%string, (@minkowski SphOps), g1, (d_spherical d), ["t"; "r"; "theta"; "phi"]%string, (@stored_rules SphOps (to_spherical sph_functions)), w2.
  split; [exact S1|]. split; [exact Ch|]. split.
  { intros EQ. destruct (session_chart _ _ _ _ _ _ _ _ S1) as [_ (_ & _ & _ & _ & (o1 & Q1 & Q2 & _))]. destruct Ch as (_ & _ & _ & _ & (o2 & Q3 & Q4 & _)). rewrite EQ, Q3 in Q1. injection Q1 as <-. rewrite Q2 in Q4. discriminate Q4. }
  split; [exact (One _ _ (or_introl eq_refl))|]. split; [exists oc; rewrite Tc, Jc; cbn [dget]; rewrite Nat.eqb_refl; auto|].
  split; [repeat constructor; cbn; intuition discriminate|]. split; [reflexivity|]. split; [exact sph_substitutable|exact Em].
Qed.
