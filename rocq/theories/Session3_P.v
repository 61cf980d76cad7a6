(** Clean-ups, Calc and the functions that compute curvature keep the invariants of a session. *)
From Verif Require Import Alg Alg_P Arr Arr_P Spec UtilsM Arr2_P TensorM WorldM SpecWorld World_P Registry_P History_P CalcM SpecCalc Keep_P Calc_P Run_P Typed_P Self_P CurvM Session_P Session2_P.
Local Open Scope nat_scope.

Section Session3.
Context {A : AlgOps}.
Implicit Types (G : list fact) (P : option oid -> Prop).

Lemma s_assoc {X Y Z} G (a : M X) (f : X -> M Y) (k : Y -> M Z) R : safe G (mbind a (fun x => mbind (f x) k)) R -> safe G (mbind (mbind a f) k) R.
Proof. intros H w Gw S. specialize (H w Gw S). unfold mbind in *. destruct (a w) as [[x|e] w1]; exact H. Qed.
Lemma gs_assoc {X Y Z} G (a : M X) (f : X -> M Y) (k : Y -> M Z) R : gsafe G (mbind a (fun x => mbind (f x) k)) R -> gsafe G (mbind (mbind a f) k) R.
Proof. intros H w Gw S. specialize (H w Gw S). unfold mbind in *. destruct (a w) as [[x|e] w1]; exact H. Qed.
Lemma s_ret {X} G (x : X) R : (forall w, good w -> sat G w -> sat (R x) w) -> safe G (mret x) R.
Proof. intros H. apply gsafe_safe, gs_ret, H. Qed.
Lemma s_raise {X} G e (R : X -> list fact) : safe G (mraise e) R.
Proof. apply gsafe_safe, gs_raise. Qed.

(** *** Deletion *)
Lemma s_delete G t s : safe G (delete t s) (fun _ => []).
Proof.
  intros w Gw _. destruct (run_op_good w (OpDelete t s) Gw I) as (H1 & H2 & _). cbn [run_op] in *.
  destruct (delete t s w) as [[x|e] w']; cbn [snd] in *; split; auto. split; [auto|constructor].
Qed.
Lemma s_try G t s : safe G (try_delete t s) (fun _ => []).
Proof.
  intros w Gw S. pose proof (s_delete G t s w Gw S) as H. unfold try_delete. destruct (delete t s w) as [[x|e] w']; [exact H|].
  destruct e; try exact H. destruct H as [H1 H2]. split; [exact H1|]. split; [exact H2|constructor].
Qed.
Lemma s_for body : (forall i, safe [] (body i) (fun _ => [])) -> forall f p, safe [] (for_instances f p body) (fun _ => []).
Proof.
  intros H. induction f as [|f IH]; intros p w Gw S; cbn [for_instances].
  - destruct (nth_error _ _); (split; [exact Gw|]); [apply eff_refl|]. split; [apply eff_refl|constructor].
  - destruct (nth_error (insts w) p) as [i|]; [|split; [exact Gw|]; split; [apply eff_refl|constructor]].
    exact (s_bind [] (body i) (fun _ => for_instances f (Datatypes.S p) body) _ _ (H i) (fun _ => IH (Datatypes.S p)) w Gw S).
Qed.
Lemma s_pass body : (forall i, safe [] (body i) (fun _ => [])) -> safe [] (pass body) (fun _ => []).
Proof. intros H w Gw S. unfold pass. exact (s_for body H (length (insts w)) 0 w Gw S). Qed.
Lemma s_times n m : safe [] m (fun _ => []) -> safe [] (times n m) (fun _ => []).
Proof. intros H. induction n as [|n IH]; cbn [times]; [apply s_ret; intros; constructor|]. eapply s_bind; [exact H|]. intros u. exact IH. Qed.
Lemma s_any {X} G (m : M X) R : safe [] m R -> safe G m R.
Proof. intros H. eapply s_pre; [exact H|]. intros; constructor. Qed.
Lemma s_named n body : (forall i, safe [] (body i) (fun _ => [])) -> forall i, safe [] (if_named n body i) (fun _ => []).
Proof.
  intros H i. unfold if_named. eapply s_gbind; [apply gs_getobj0|]. intros o. cbn [app]. destruct (String.eqb _ _); [apply H|apply s_ret; intros; constructor].
Qed.
Lemma s_temp_pass G : safe G (pass (if_named "TEMP" (fun i => delete i true))) (fun _ => []).
Proof. apply s_any, s_pass, s_named. intros i. apply s_delete. Qed.
Lemma s_clean G : safe G clean_temporaries (fun _ => []).
Proof. apply s_any, s_times, s_temp_pass. Qed.
Lemma s_finish_calc G r : safe G (finish_calc r) (fun _ => []).
Proof. unfold finish_calc. eapply s_bind; [apply s_temp_pass|]. intros u. apply s_delete. Qed.
Lemma s_delete_results G b : safe G (delete_results b) (fun _ => []).
Proof. apply s_any, s_times, s_pass, s_named. intros i. apply s_try. Qed.

(** What is registered besides t stays registered. *)
Lemma delete_others w t s j : registry_ok w -> In j (insts w) -> j <> t -> In j (insts (snd (delete t s w))).
Proof.
  intros R Hj N. destruct (in_dec Nat.eq_dec t (insts w)) as [Ht|Ht].
  - destruct (used_dec w t) as [Hu|Hu]; [rewrite delete_used by assumption; exact Hj|].
    destruct (delete_unused w t s R Ht Hu) as (w' & E & H). rewrite E. cbn [snd]. destruct R as [Hn _]. apply (removed_in w t w' j Hn H). auto.
  - assert (Hi : index_of Nat.eqb t (insts w) = None).
    { destruct (index_of Nat.eqb t (insts w)) as [p|] eqn:E; [|reflexivity]. exfalso. apply Ht.
      clear -E. revert p E. induction (insts w) as [|x l IH]; cbn; [discriminate|]. intros p.
      destruct (Nat.eqb_spec t x); [auto|]. destruct (index_of Nat.eqb t l); [|discriminate]. eauto. }
    unfold delete; cbv zeta. rewrite Hi. destruct (find _ _) as [q|]; [destruct (obj_of w q), (obj_of w t); exact Hj|].
    destruct (obj_of w t); [|destruct s]; exact Hj.
Qed.
Lemma delete_same_obj w t s j : j <> t -> obj_of (snd (delete t s w)) j = obj_of w j.
Proof.
  intros N. unfold delete; cbv zeta. destruct (find _ _) as [q|]; [destruct (obj_of w q), (obj_of w t); reflexivity|].
  assert (Hs : forall l, obj_of (mkW (match nth_error (heap w) t with Some (k, _) => set_nth t (k, None) (heap w) | None => heap w end) l) j = obj_of w j).
  { intros l. unfold obj_of. cbn [heap]. destruct (nth_error (heap w) t) as [[k x]|]; [|reflexivity]. rewrite nth_set_nth.
    destruct (Nat.eqb_spec t j); [congruence|reflexivity]. }
  destruct (obj_of w t); [|destruct s; [destruct (index_of _ _ _)|]; reflexivity]. destruct (index_of _ _ _); apply Hs.
Qed.
Lemma s_delete_keep G r x k : In (OfCls (Some r) CTensor) G -> In (OfCls x k) G -> k <> CTensor -> In (Reg x) G ->
  safe G (delete r true) (fun _ => [Reg x]).
Proof.
  intros H1 H2 N H3 w Gw S. pose proof (s_delete G r true w Gw S) as H. pose proof (sat_in _ _ _ H1 S r eq_refl) as C1.
  pose proof (sat_in _ _ _ H2 S) as C2. pose proof (sat_in _ _ _ H3 S) as C3. cbn in C2, C3.
  assert (K : forall t, x = Some t -> In t (insts (snd (delete r true w)))).
  { intros t E. apply delete_others; [apply good_ok, Gw|auto|]. intros ->. specialize (C2 r E). congruence. }
  destruct (delete r true w) as [[y|e] w']; [|exact H]. destruct H as (? & ? & _). split; [assumption|]. split; [assumption|]. facts. exact K.
Qed.

(** *** Publishing *)
Definition made (t : oid) (k : cls) (m : option oid) : list fact := [Opnd (Some t) (eq m); Held (Some t); Reg (Some t); Reg m; OfCls (Some t) k].

Lemma reg_metric w t m o : good w -> In t (insts w) -> obj_of w t = Some o -> o_metric o = m -> sem (Reg m) w.
Proof. intros Gw H1 H2 <- x X. destruct (g_int _ Gw) as [_ Hr]. apply (Hr t o x H1 H2). unfold refers. auto. Qed.

Lemma made_facts w t k m o : good w -> In t (insts w) -> cls_of w t = Some k -> obj_of w t = Some o -> o_metric o = m -> sat (made t k m) w.
Proof.
  intros Gw H1 H2 H3 H4. pose proof (new_facts _ _ _ _ _ Gw H1 H2 H3 H4) as S. unfold newt, made, sat in *.
  inversion S as [|? ? S1 S']; subst. inversion S' as [|? ? S2 S'']; subst. inversion S'' as [|? ? S3 S4]; subst. inversion S4; subst.
  facts; auto. eapply reg_metric; eauto.
Qed.

(** A new tensor that survives the clean-up. *)
Lemma s_made G k name a (m c : option oid) i s (q : M unit) : k <> CMetric -> k <> CCoordinates -> In (Reg m) G -> In (Held c) G -> name <> "TEMP"%string ->
  safe [] q (fun _ => []) -> (forall w t o r w', good w -> In t (insts w) -> obj_of w t = Some o -> o_name o = name -> sat G w -> t < length (heap w) ->
    (forall j, In (Held (Some j)) G -> j <> t) -> q w = (Ok r, w') -> obj_of w' t = Some o /\ In t (insts w')) ->
  safe G (let! t := make_tensor k name a m c i s in q ;; mret t) (fun t => made t k m).
Proof.
  intros Nk Nk' Hm Hc Nn Hq Hk w Gw S. pose proof (sat_in _ _ _ Hm S) as Sm. pose proof (sat_in _ _ _ Hc S) as Sc. cbn in Sm, Sc.
  assert (Sc' : forall j, c = Some j -> j < length (heap w) /\ (In j (insts w) \/ obj_of w j = None)) by (intros j E; destruct (Sc j E) as (? & ? & _); auto).
  pose proof (make_spec k name a m c i s w Nk Nk' Gw Sm Sc') as H. unfold mbind at 1. destruct (make_tensor k name a m c i s w) as [[t|e] w1].
  2:{ subst w1. split; [exact Gw|apply eff_refl]. }
  destruct H as (Et & G1 & E1 & H1 & H2 & o & mm & H3 & H4 & H5 & H6). pose proof (Hq w1 G1 (Forall_nil _)) as Q. unfold mbind.
  destruct (q w1) as [[u|e] w2] eqn:Eq.
  2:{ destruct Q as [Q1 Q2]. split; [exact Q1|]. eapply eff_trans; [apply E1|exact Q2|apply good_ok, Gw]. }
  destruct Q as (G2 & E2 & _). cbn [mret]. split; [exact G2|]. split; [eapply eff_trans; [apply E1|exact E2|apply good_ok, Gw]|].
  assert (S1 : sat G w1) by (eapply sat_geff; [apply good_ok, Gw|exact E1|exact S]).
  assert (Hj : forall j, In (Held (Some j)) G -> j <> t).
  { intros j Hj. pose proof (sat_in _ _ _ Hj S j eq_refl) as (L & _). lia. }
  destruct (Hk w1 t o u w2 G1 H1 H3 H5 S1 (registered_lt _ _ (good_ok _ G1) H1) Hj Eq) as (K1 & K2).
  eapply made_facts; eauto. apply (e_cls _ _ E2), H2.
Qed.
Lemma s_made_finish G k name a m c i s r : k <> CMetric -> k <> CCoordinates -> In (Reg m) G -> In (Held c) G -> In (Held (Some r)) G -> name <> "TEMP"%string ->
  safe G (let! t := make_tensor k name a m c i s in finish_calc r ;; mret t) (fun t => made t k m).
Proof.
  intros Nk Nk' Hm Hc Hr Nn. apply s_made; auto; [apply s_finish_calc|]. intros w t o u w' Gw Ht Ho En S L Hj Eq.
  unfold finish_calc, mbind in Eq. destruct (pass _ w) as [[x|e] w1] eqn:Ep; [|discriminate Eq].
  pose proof (times_cleaned 1 w (Ok tt) w1) as C. cbn [times] in C. unfold mbind in C. rewrite Ep in C. specialize (C eq_refl).
  destruct C as (_ & _ & _ & C4 & C5). destruct (C5 t o Ho ltac:(congruence)) as [C6 C7]. specialize (C7 Ht).
  pose proof (s_temp_pass [] w Gw (Forall_nil _)) as Q. rewrite Ep in Q. destruct Q as (G1 & _).
  assert (N : t <> r) by (specialize (Hj r Hr); congruence).
  pose proof (delete_others w1 r true t (good_ok _ G1) C7 N) as K. pose proof (s_delete [] r true w1 G1 (Forall_nil _)) as Q. rewrite Eq in Q, K. destruct Q as (G2 & E2 & _).
  cbn [snd] in K. split; [|exact K]. destruct (good_ok _ G2) as [_ Ha]. specialize (Ha t K). destruct (obj_of w' t) as [o'|] eqn:E; [|congruence].
  destruct (delete_carried w1 r true) as [_ Dc]. pose proof (delete_same_obj w1 r true t N) as D. rewrite Eq in D. cbn [snd] in D. congruence.
Qed.
Lemma s_made_pass G k name a m c i s : k <> CMetric -> k <> CCoordinates -> In (Reg m) G -> In (Held c) G -> name <> "TEMP"%string ->
  safe G (let! t := make_tensor k name a m c i s in pass (if_named "TEMP" (fun i => delete i true)) ;; mret t) (fun t => made t k m).
Proof.
  intros Nk Nk' Hm Hc Nn. apply s_made; auto; [apply s_temp_pass|]. intros w t o u w' Gw Ht Ho En S L Hj Ep.
  pose proof (times_cleaned 1 w (Ok tt) w') as C. cbn [times] in C. unfold mbind in C. rewrite Ep in C. specialize (C eq_refl).
  destruct C as (_ & _ & _ & C4 & C5). destruct (C5 t o Ho ltac:(congruence)) as [C6 C7]. auto.
Qed.
End Session3.
