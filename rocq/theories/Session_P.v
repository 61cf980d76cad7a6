(** What every public function does to a session: it keeps the invariants, objects that are held
    stay registered or are deleted, and nothing that is registered comes back. *)
From Verif Require Import Alg Alg_P Arr Arr_P Spec UtilsM Arr2_P TensorM WorldM SpecWorld World_P Registry_P History_P CalcM SpecCalc Keep_P Calc_P Run_P Typed_P Self_P SpecRank Rank_P Home_P Stored_P.
Local Open Scope nat_scope.

Section Session.
Context {A : AlgOps}.

(** *** The shapes of a step *)
Definition steady (w w' : world) : Prop :=
  insts w' = insts w /\ length (heap w') = length (heap w) /\ (forall i, cls_of w' i = cls_of w i) /\
  forall i, match obj_of w i, obj_of w' i with
            | Some o, Some o' => o_metric o' = o_metric o
            | None, None => True
            | _, _ => False
            end.
Lemma steady_refl w : steady w w.
Proof. repeat split. intros i. destruct (obj_of w i); [reflexivity|exact I]. Qed.
Lemma steady_trans w1 w2 w3 : steady w1 w2 -> steady w2 w3 -> steady w1 w3.
Proof.
  intros (a1 & a2 & a3 & a4) (b1 & b2 & b3 & b4). split; [congruence|]. split; [congruence|]. split; [intros; congruence|].
  intros i. specialize (a4 i). specialize (b4 i). destruct (obj_of w1 i), (obj_of w2 i), (obj_of w3 i); try tauto; congruence.
Qed.
Lemma kept_steady w w' : kept w w' -> steady w w'.
Proof.
  intros (a1 & a2 & a3 & a4). split; [exact a1|]. split; [exact a2|]. split; [exact a3|].
  intros i. specialize (a4 i). destruct (obj_of w i), (obj_of w' i); try tauto. apply a4.
Qed.
Lemma put_steady w i o o' : obj_of w i = Some o -> o_metric o' = o_metric o -> steady w (snd (put i o' w)).
Proof.
  intros Ho E. destruct (put_spec w i o o' Ho) as (w' & E1 & Hi & Hl & Hc & Hj). rewrite E1. cbn [snd].
  split; [exact Hi|]. split; [exact Hl|]. split; [exact Hc|]. intros j. rewrite Hj.
  destruct (Nat.eqb_spec i j) as [<-|N]; [rewrite Ho; exact E|]. destruct (obj_of w j); [reflexivity|exact I].
Qed.

(** No step brings back what is gone; what is registered stays so or is deleted. *)
Record eff (w w' : world) : Prop := mkEff {
  e_len : length (heap w) <= length (heap w');
  e_cls : forall i k, cls_of w i = Some k -> cls_of w' i = Some k;
  e_reg : forall i, In i (insts w) -> In i (insts w') \/ obj_of w' i = None;
  e_obj : forall i o', i < length (heap w) -> obj_of w' i = Some o' -> exists o, obj_of w i = Some o /\ o_metric o' = o_metric o;
  e_old : forall i, i < length (heap w) -> In i (insts w') -> In i (insts w)
}.
Definition geff (w w' : world) : Prop := eff w w' /\ incl (insts w) (insts w').

Lemma eff_refl w : eff w w.
Proof. constructor; auto. intros i o' _ H. exists o'. auto. Qed.
Lemma eff_trans w1 w2 w3 : eff w1 w2 -> eff w2 w3 -> registry_ok w1 -> eff w1 w3.
Proof.
  intros a b R. constructor.
  - pose proof (e_len _ _ a). pose proof (e_len _ _ b). lia.
  - intros i k H. apply (e_cls _ _ b), (e_cls _ _ a), H.
  - intros i H. destruct (e_reg _ _ a i H) as [H1|H1]; [apply (e_reg _ _ b), H1|]. right.
    destruct (obj_of w3 i) as [o3|] eqn:E; [|reflexivity].
    assert (Hl : i < length (heap w2)) by (pose proof (registered_lt _ _ R H); pose proof (e_len _ _ a); lia).
    destruct (e_obj _ _ b i o3 Hl E) as (o & H2 & _). congruence.
  - intros i o' Hl H. pose proof (e_len _ _ a). destruct (e_obj _ _ b i o' ltac:(lia) H) as (o2 & H2 & E2).
    destruct (e_obj _ _ a i o2 Hl H2) as (o1 & H1 & E1). exists o1. split; [exact H1|congruence].
  - intros i Hl H. pose proof (e_len _ _ a). apply (e_old _ _ a i Hl), (e_old _ _ b i); [lia|exact H].
Qed.
Lemma geff_refl w : geff w w.
Proof. split; [apply eff_refl|apply incl_refl]. Qed.
Lemma geff_trans w1 w2 w3 : geff w1 w2 -> geff w2 w3 -> registry_ok w1 -> geff w1 w3.
Proof. intros [a1 a2] [b1 b2] R. split; [eapply eff_trans; eassumption|eapply incl_tran; eassumption]. Qed.

Lemma obj_lt w i : obj_of w i <> None -> i < length (heap w).
Proof. destruct (obj_of w i) eqn:E; [|congruence]. intros _. eapply obj_of_lt, E. Qed.

Lemma steady_geff w w' : steady w w' -> geff w w'.
Proof.
  intros (H1 & H2 & H3 & H4). split; [constructor|rewrite H1; apply incl_refl].
  - lia.
  - intros i k H. rewrite H3. exact H.
  - intros i H. left. rewrite H1. exact H.
  - intros i o' _ H. specialize (H4 i). rewrite H in H4. destruct (obj_of w i) as [o|]; [|destruct H4]. exists o. auto.
  - intros i _. rewrite H1. auto.
Qed.
Lemma fresh_geff w k o : geff w (fresh_world w k o).
Proof.
  split; [constructor|intros i H; apply in_app_iff; left; exact H].
  - cbn. rewrite app_length. lia.
  - intros i k' H. apply cls_fresh_old, H.
  - intros i H. left. apply in_app_iff. left; exact H.
  - intros i o' Hl. rewrite obj_of_fresh. destruct (Nat.eqb_spec i (length (heap w))); [lia|]. intros H. exists o'. auto.
  - intros i Hl H. cbn in H. apply in_app_iff in H as [H|[H|[]]]; [exact H|lia].
Qed.
Lemma delete_eff w t s : registry_ok w -> eff w (snd (delete t s w)).
Proof.
  intros R. destruct (in_dec Nat.eq_dec t (insts w)) as [Ht|Ht].
  - destruct (used_dec w t) as [Hu|Hu]; [rewrite delete_used by assumption; apply eff_refl|].
    destruct (delete_unused w t s R Ht Hu) as (w' & E & H). pose proof (delete_carried w t s) as [Cc Co].
    assert (Hh : length (heap w') = length (heap w)).
    { revert E. unfold delete; cbv zeta. destruct (find _ _) as [j|]; [destruct (obj_of w j), (obj_of w t); discriminate|].
      destruct (obj_of w t); [|destruct s; [destruct (index_of _ _ _); [|discriminate]|discriminate]; intros X; injection X as <-; reflexivity].
      destruct (index_of _ _ _); [|discriminate]. intros X; injection X as <-. cbn [heap]. destruct (nth_error (heap w) t) as [[c x]|]; [apply set_nth_length|reflexivity]. }
    rewrite E in *. cbn [snd] in *. pose proof (removed_in w t w') as Hin. destruct R as [Hn Ha]. specialize (fun j => Hin j Hn H). constructor.
    + lia.
    + intros i k X. rewrite Cc. exact X.
    + intros i X. destruct (Nat.eq_dec i t) as [->|N]; [right; apply H|left; apply Hin; auto].
    + intros i o' _ X. destruct (Co i o' X) as (o & X1 & _ & X2). eauto.
    + intros i _ X. apply Hin in X. apply X.
  - pose proof (delete_carried w t s) as [Cc Co].
    assert (G : insts (snd (delete t s w)) = insts w /\ length (heap (snd (delete t s w))) = length (heap w)).
    { unfold delete; cbv zeta. destruct (find _ _) as [j|]; [destruct (obj_of w j), (obj_of w t); auto|].
      assert (Hi : index_of Nat.eqb t (insts w) = None).
      { destruct (index_of Nat.eqb t (insts w)) as [p|] eqn:E; [|reflexivity]. exfalso. apply Ht.
        clear -E. revert p E. induction (insts w) as [|x l IH]; cbn; [discriminate|]. intros p.
        destruct (Nat.eqb_spec t x); [auto|]. destruct (index_of Nat.eqb t l); [|discriminate]. eauto. }
      rewrite Hi. destruct (obj_of w t); [|destruct s; auto]. cbn [snd insts heap]. split; [reflexivity|].
      destruct (nth_error (heap w) t) as [[c x]|]; [apply set_nth_length|reflexivity]. }
    destruct G as [G1 G2]. constructor.
    + lia.
    + intros i k X. rewrite Cc. exact X.
    + intros i X. left. rewrite G1. exact X.
    + intros i o' _ X. destruct (Co i o' X) as (o & X1 & _ & X2). eauto.
    + intros i _ X. rewrite G1 in X. exact X.
Qed.

(** *** Every operation has one of these shapes *)
Lemma run_op_shape w (o : op) : typed w ->
  (exists t s, o = OpDelete t s) \/ steady w (snd (run_op o w)) \/
  exists k o', snd (run_op o w) = fresh_world w k o' /\ (k = CMetric -> o_metric o' = Some (length (heap w))).
Proof.
  intros Hty.
  assert (Tn : forall k n c m x i s, k <> CMetric -> steady w (snd ((new_tensor_as k n c m x i s ;; mret tt) w)) \/
    exists k2 o', snd ((new_tensor_as k n c m x i s ;; mret tt) w) = fresh_world w k2 o' /\ (k2 = CMetric -> o_metric o' = Some (length (heap w)))).
  { intros k n c m x i s Nk. unfold mbind. destruct (new_tensor_spec k n c m x i s w) as [[e E]|(m' & c' & a & y & Hm & Hmc & Hc & Hcc & Ha & Hx & Hv & E)]; rewrite E; [left; apply steady_refl|].
    right. cbn [snd mret]. eexists k, _. split; [reflexivity|congruence]. }
  destruct o as [n c i s tr|n c x i s|n c m x i s|n c m x i s|n c m x i s|n c m x i s|self c r|t c i|t i|t c|t n|t n|t|t silent]; cbn [run_op];
    try (right; apply Tn; discriminate).
  - right. unfold mbind. destruct (new_coordinates_spec n c i s tr w) as [[e E]|(a & Ha & Hr & E)]; rewrite E; [left; apply steady_refl|].
    right. cbn [snd mret]. eexists CCoordinates, _. split; [reflexivity|discriminate].
  - right. unfold mbind. destruct (new_metric_cases n c x i s w) as [[e E]|(c' & o & w' & r & Hc & Hk & E & Hw' & H1 & H2 & H3 & H4 & Hr & Hl)]; rewrite E; [left; apply steady_refl|].
    right. exists CMetric, o. split; [destruct r; exact Hw'|]. intros _. exact H2.
  - right. left. unfold add_coord_transformation. destruct c; try apply steady_refl.
    unfold mbind at 1, isinstance. destruct (negb _); [apply steady_refl|]. destruct (self =? i); [apply steady_refl|].
    unfold mbind, getobj. destruct (obj_of w self) as [o|] eqn:Eo; [|apply steady_refl].
    destruct r; [destruct (forallb _ _)|destruct (dmem _ _ _)]; try apply steady_refl; apply (put_steady _ _ _ _ Eo); reflexivity.
  - right. left. unfold mbind. destruct (get_components t c i w) as [r w'] eqn:E.
    pose proof (kept_steady _ _ (get_components_kept _ _ _ _ _ _ Hty E)). destruct r; assumption.
  - right. left. unfold change_default_indices. unfold mbind at 1, getobj. destruct (obj_of w t) as [o|] eqn:Eo; [|apply steady_refl].
    unfold mbind at 1, mlift. destruct (validate_indices _ _ _); [|apply steady_refl].
    destruct (o_coords o) as [c|]; [|apply steady_refl]. unfold mbind at 1, mopt, mret. unfold mbind at 1.
    pose proof (check_rep_keep w Hty t c i w (kept_refl w)) as H. destruct (check_representation t c i w) as [[b|e] w'].
    2:{ exact (kept_steady _ _ H). }
    destruct b; [|exact (kept_steady _ _ H)].
    unfold mbind, getobj. destruct (obj_of w' t) as [o'|] eqn:Eo'; [|exact (kept_steady _ _ H)].
    eapply steady_trans; [exact (kept_steady _ _ H)|]. apply (put_steady _ _ _ _ Eo'); reflexivity.
  - right. left. unfold change_default_coords. unfold mbind at 1, isinstance. destruct (negb _); [apply steady_refl|].
    unfold mbind at 1, getobj. destruct (obj_of w t) as [o|] eqn:Eo; [|apply steady_refl].
    destruct (o_coords o) as [c0|]; [|apply steady_refl]. cbn [mopt]. unfold mbind at 1, mret at 1. destruct (c0 =? c); [apply steady_refl|].
    unfold mbind at 1. destruct (obj_of w c0) as [co|]; [|apply steady_refl]. destruct (negb _).
    { unfold mbind. destruct (obj_of w c); apply steady_refl. }
    unfold mbind at 1.
    pose proof (check_rep_keep w Hty t c (o_indices o) w (kept_refl w)) as H. destruct (check_representation t c (o_indices o) w) as [[b|e] w'].
    2:{ exact (kept_steady _ _ H). }
    assert (H2 : hoare (kept w) (if b then mret tt else transform_coordinates t c (o_indices o)) (fun _ => kept w) (kept w)).
    { destruct b; [apply h_ret; auto|apply transform_coords_keep, Hty]. }
    unfold mbind at 1. specialize (H2 w' H). destruct ((if b then mret tt else transform_coordinates t c (o_indices o)) w') as [[u|e] w2].
    2:{ exact (kept_steady _ _ H2). }
    unfold mbind. destruct (obj_of w2 t) as [o2|] eqn:Eo2; [|exact (kept_steady _ _ H2)].
    eapply steady_trans; [exact (kept_steady _ _ H2)|]. apply (put_steady _ _ _ _ Eo2); reflexivity.
  - right. left. unfold change_name. destruct n; try apply steady_refl. unfold mbind, getobj. destruct (obj_of w t) as [o|] eqn:Eo; [|apply steady_refl].
    apply (put_steady _ _ _ _ Eo); reflexivity.
  - right. left. unfold change_symbol. destruct n; try apply steady_refl; (unfold mbind, getobj; destruct (obj_of w t) as [o|] eqn:Eo; [|apply steady_refl];
      apply (put_steady _ _ _ _ Eo); reflexivity).
  - right. left. unfold simplify_tensor. unfold mbind at 1, getobj. destruct (obj_of w t) as [o|] eqn:Eo; [|apply steady_refl].
    destruct (o_coords o) as [c|]; [|apply steady_refl]. unfold mbind at 1, mopt, mret at 1. unfold mbind at 1.
    pose proof (coord_components_same c w) as E. destruct (coord_components c w) as [[x|e] w']; cbn in E; subst w'; [|apply steady_refl].
    destruct (o_rank o =? 0); [destruct (flat_map snd (o_comps o)); apply steady_refl|].
    apply (put_steady _ _ _ _ Eo); reflexivity.
  - left. eauto.
Qed.

(** *** The invariant *)
Definition selfr (w : world) : Prop :=
  forall i o, In i (insts w) -> obj_of w i = Some o -> cls_of w i = Some CMetric -> o_metric o = Some i.
Record good (w : world) : Prop := mkGood { g_int : integrity w; g_snd : sound w; g_self : selfr w; g_rank : ranks w; g_home : homes w; g_key : keyeds w }.

Lemma good_ok w : good w -> registry_ok w.
Proof. intros G. apply (g_int _ G). Qed.
Lemma good_typed w : good w -> typed w.
Proof. intros G. apply (g_snd _ G). Qed.

Lemma steady_self w w' : steady w w' -> selfr w -> selfr w'.
Proof.
  intros (H1 & H2 & H3 & H4) S i o' Hi Ho Hc. rewrite H1 in Hi. rewrite H3 in Hc. specialize (H4 i). rewrite Ho in H4.
  destruct (obj_of w i) as [o|] eqn:E; [|destruct H4]. rewrite H4. exact (S i o Hi E Hc).
Qed.
Lemma fresh_selfr w k o : registry_ok w -> selfr w -> (k = CMetric -> o_metric o = Some (length (heap w))) -> selfr (fresh_world w k o).
Proof.
  intros R S Hm i oi Hi. rewrite obj_of_fresh. destruct (Nat.eqb_spec i (length (heap w))) as [->|N].
  - intros E. injection E as <-. rewrite cls_fresh_new. intros K. apply Hm. congruence.
  - intros H. rewrite cls_of_fresh by exact N. apply S; [|exact H]. cbn in Hi. apply in_app_iff in Hi as [Hi|[Hi|[]]]; [exact Hi|congruence].
Qed.
Lemma eff_self w w' : eff w w' -> (forall i, In i (insts w') -> i < length (heap w)) -> (forall i, cls_of w' i = cls_of w i) -> selfr w -> selfr w'.
Proof.
  intros E N C S i o' Hi Ho Hc. specialize (N i Hi). destruct (e_obj _ _ E i o' N Ho) as (o & H & ->). rewrite C in Hc.
  exact (S i o (e_old _ _ E i N Hi) H Hc).
Qed.

Lemma run_op_good w (o : op) : good w -> live_args w o -> good (snd (run_op o w)) /\ eff w (snd (run_op o w)) /\
  ((forall t s, o <> OpDelete t s) -> geff w (snd (run_op o w))).
Proof.
  intros G L. assert (K' := grown_ranks _ _ (run_op_grown w o (good_typed _ G)) (g_rank _ G)). assert (Q1 := run_op_homes w o (good_typed _ G) (g_home _ G)). assert (Q2 := run_op_keyeds w o (good_typed _ G) (rank_all _ (g_rank _ G)) (g_key _ G)). assert (I' := run_op_integrity w o (g_int _ G) L). assert (S' := run_op_sound w o (g_snd _ G)).
  destruct (run_op_shape w o (good_typed _ G)) as [(t & s & ->)|[H|(k & o' & H & Hm)]].
  - assert (E := delete_eff w t s (good_ok _ G)). split; [|split; [exact E|intros X; exfalso; eapply X; reflexivity]].
    split; [exact I'|exact S'| |exact K'|exact Q1|exact Q2]. eapply eff_self; [exact E| |apply delete_carried|apply G].
    intros i Hi. cbn [run_op] in *. destruct (delete_carried w t s) as [Cc _].
    pose proof (registered_lt _ _ (proj1 I') Hi) as Hl.
    destruct (Nat.ltb_spec i (length (heap w))) as [|C]; [assumption|]. exfalso.
    apply nth_error_None in C. specialize (Cc i). unfold cls_of in Cc. rewrite C in Cc. cbn in Cc.
    apply nth_error_Some in Hl. destruct (nth_error _ i); [discriminate Cc|congruence].
  - split; [|split; [apply steady_geff, H|intros _; apply steady_geff, H]].
    split; [exact I'|exact S'| |exact K'|exact Q1|exact Q2]. eapply steady_self; [exact H|apply G].
  - rewrite H in *. split; [|split; [apply fresh_geff|intros _; apply fresh_geff]].
    split; [exact I'|exact S'| |exact K'|exact Q1|exact Q2]. apply fresh_selfr; [apply good_ok, G|apply G|exact Hm].
Qed.

(** *** Facts that are carried along *)
Inductive fact :=
| Opnd (x : option oid) (P : option oid -> Prop)   (* held: registered or deleted, with a metric in P *)
| Reg (x : option oid)                              (* registered *)
| OfCls (x : option oid) (k : cls)
| Pure (P : Prop).
Definition sem (f : fact) (w : world) : Prop :=
  match f with
  | Opnd x P => forall t, x = Some t -> t < length (heap w) /\ (In t (insts w) \/ obj_of w t = None) /\
                  forall o, obj_of w t = Some o -> P (o_metric o)
  | Reg x => forall t, x = Some t -> In t (insts w)
  | OfCls x k => forall t, x = Some t -> cls_of w t = Some k
  | Pure P => P
  end.
Definition Any : option oid -> Prop := fun _ => True.
Definition Held (x : option oid) : fact := Opnd x Any.
Definition durable (f : fact) : bool := match f with Reg _ => false | _ => true end.
Definition sat (G : list fact) (w : world) : Prop := Forall (fun f => sem f w) G.

Lemma sem_eff f w w' : durable f = true -> registry_ok w -> eff w w' -> sem f w -> sem f w'.
Proof.
  destruct f as [x P|x|x k|P]; cbn; try discriminate; intros _ R E; [| |auto].
  - intros H t ->. destruct (H t eq_refl) as (H1 & H2 & H3). split; [pose proof (e_len _ _ E); lia|]. split.
    + destruct H2 as [H2|H2]; [apply (e_reg _ _ E), H2|]. right. destruct (obj_of w' t) as [o'|] eqn:Eo; [|reflexivity].
      destruct (e_obj _ _ E t o' H1 Eo) as (o & X & _). congruence.
    + intros o' Ho. destruct (e_obj _ _ E t o' H1 Ho) as (o & X & ->). apply H3, X.
  - intros H t ->. apply (e_cls _ _ E), (H t eq_refl).
Qed.
Lemma sem_geff f w w' : registry_ok w -> geff w w' -> sem f w -> sem f w'.
Proof.
  intros R [E I]. destruct (durable f) eqn:D; [apply sem_eff; assumption|].
  destruct f; try discriminate. cbn. intros H t ->. apply I, (H t eq_refl).
Qed.
Lemma sat_geff G w w' : registry_ok w -> geff w w' -> sat G w -> sat G w'.
Proof. intros R E. apply Forall_impl. intros f. apply sem_geff; assumption. Qed.
Lemma sat_eff G w w' : registry_ok w -> eff w w' -> sat G w -> sat (filter durable G) w'.
Proof.
  intros R E H. apply Forall_forall. intros f Hf. apply filter_In in Hf as [Hf D]. unfold sat in H. rewrite Forall_forall in H. eapply sem_eff; eauto.
Qed.
Lemma sat_in G w f : In f G -> sat G w -> sem f w.
Proof. intros H S. unfold sat in S. rewrite Forall_forall in S. apply S, H. Qed.
Lemma sat_app G1 G2 w : sat (G1 ++ G2) w <-> sat G1 w /\ sat G2 w.
Proof. apply Forall_app. Qed.

(** Growing and arbitrary programs. *)
Definition gsafe {X} (G : list fact) (m : M X) (R : X -> list fact) : Prop :=
  forall w, good w -> sat G w -> match m w with
                                 | (Ok x, w') => good w' /\ geff w w' /\ sat (R x) w'
                                 | (Err _, w') => good w' /\ geff w w'
                                 end.
Definition safe {X} (G : list fact) (m : M X) (R : X -> list fact) : Prop :=
  forall w, good w -> sat G w -> match m w with
                                 | (Ok x, w') => good w' /\ eff w w' /\ sat (R x) w'
                                 | (Err _, w') => good w' /\ eff w w'
                                 end.

Lemma gsafe_safe {X} G (m : M X) R : gsafe G m R -> safe G m R.
Proof. intros H w Gw S. specialize (H w Gw S). destruct (m w) as [[x|e] w']; [|destruct H as [? []]; auto]. destruct H as (? & [] & ?). auto. Qed.
Lemma gs_bind {X Y} G (m : M X) (k : X -> M Y) R R' : gsafe G m R -> (forall x, gsafe (R x ++ G) (k x) R') -> gsafe G (mbind m k) R'.
Proof.
  intros H1 H2 w Gw S. unfold mbind. specialize (H1 w Gw S). destruct (m w) as [[x|e] w1]; [|exact H1]. destruct H1 as (G1 & E1 & S1).
  assert (S2 : sat (R x ++ G) w1) by (apply sat_app; split; [exact S1|eapply sat_geff; [apply good_ok, Gw|exact E1|exact S]]).
  specialize (H2 x w1 G1 S2). destruct (k x w1) as [[y|e] w2].
  - destruct H2 as (G2 & E2 & S3). split; [exact G2|]. split; [eapply geff_trans; eauto using good_ok|exact S3].
  - destruct H2 as (G2 & E2). split; [exact G2|]. eapply geff_trans; eauto using good_ok.
Qed.
Lemma s_bind {X Y} G (m : M X) (k : X -> M Y) R R' : safe G m R -> (forall x, safe (R x ++ filter durable G) (k x) R') -> safe G (mbind m k) R'.
Proof.
  intros H1 H2 w Gw S. unfold mbind. specialize (H1 w Gw S). destruct (m w) as [[x|e] w1]; [|exact H1]. destruct H1 as (G1 & E1 & S1).
  assert (S2 : sat (R x ++ filter durable G) w1) by (apply sat_app; split; [exact S1|eapply sat_eff; [apply good_ok, Gw|exact E1|exact S]]).
  specialize (H2 x w1 G1 S2). destruct (k x w1) as [[y|e] w2].
  - destruct H2 as (G2 & E2 & S3). split; [exact G2|]. split; [eapply eff_trans; eauto using good_ok|exact S3].
  - destruct H2 as (G2 & E2). split; [exact G2|]. eapply eff_trans; eauto using good_ok.
Qed.
Lemma s_gbind {X Y} G (m : M X) (k : X -> M Y) R R' : gsafe G m R -> (forall x, safe (R x ++ G) (k x) R') -> safe G (mbind m k) R'.
Proof.
  intros H1 H2 w Gw S. unfold mbind. specialize (H1 w Gw S). destruct (m w) as [[x|e] w1]; [|destruct H1 as [? []]; auto]. destruct H1 as (G1 & E1 & S1).
  assert (S2 : sat (R x ++ G) w1) by (apply sat_app; split; [exact S1|eapply sat_geff; [apply good_ok, Gw|exact E1|exact S]]).
  specialize (H2 x w1 G1 S2). destruct E1 as [E1 _]. destruct (k x w1) as [[y|e] w2].
  - destruct H2 as (G2 & E2 & S3). split; [exact G2|]. split; [eapply eff_trans; eauto using good_ok|exact S3].
  - destruct H2 as (G2 & E2). split; [exact G2|]. eapply eff_trans; eauto using good_ok.
Qed.
Lemma gs_ret {X} G (x : X) R : (forall w, good w -> sat G w -> sat (R x) w) -> gsafe G (mret x) R.
Proof. intros H w Gw S. cbn. split; [exact Gw|]. split; [apply geff_refl|apply H; assumption]. Qed.
Lemma gs_raise {X} G e (R : X -> list fact) : gsafe G (mraise e) R.
Proof. intros w Gw S. cbn. split; [exact Gw|apply geff_refl]. Qed.
Lemma gs_lift {X} G (r : res X) : gsafe G (mlift r) (fun _ => []).
Proof. intros w Gw S. cbn. destruct r; [|split; [exact Gw|apply geff_refl]]. split; [exact Gw|]. split; [apply geff_refl|constructor]. Qed.
Lemma gs_opt {X} G e (x : option X) : gsafe G (mopt e x) (fun y => [Pure (x = Some y)]).
Proof. destruct x; [|apply gs_raise]. apply gs_ret. intros w _ _. repeat constructor. Qed.
Lemma gs_weak {X} G (m : M X) R R' : gsafe G m R -> (forall x w, good w -> sat (R x) w -> sat (R' x) w) -> gsafe G m R'.
Proof. intros H1 H2 w Gw S. specialize (H1 w Gw S). destruct (m w) as [[x|e] w']; [|exact H1]. destruct H1 as (? & ? & ?). auto. Qed.
Lemma gs_pre {X} G G' (m : M X) R : gsafe G' m R -> (forall w, good w -> sat G w -> sat G' w) -> gsafe G m R.
Proof. intros H1 H2 w Gw S. apply H1; auto. Qed.
Lemma s_weak {X} G (m : M X) R R' : safe G m R -> (forall x w, good w -> sat (R x) w -> sat (R' x) w) -> safe G m R'.
Proof. intros H1 H2 w Gw S. specialize (H1 w Gw S). destruct (m w) as [[x|e] w']; [|exact H1]. destruct H1 as (? & ? & ?). auto. Qed.
Lemma s_pre {X} G G' (m : M X) R : safe G' m R -> (forall w, good w -> sat G w -> sat G' w) -> safe G m R.
Proof. intros H1 H2 w Gw S. apply H1; auto. Qed.
(** Programs that change nothing. *)
Lemma gs_same {X} G (m : M X) : (forall w, snd (m w) = w) -> gsafe G m (fun _ => []).
Proof.
  intros H w Gw S. specialize (H w). destruct (m w) as [[x|e] w']; cbn in H; subst w'; (split; [exact Gw|]); [split|]; try apply geff_refl. constructor.
Qed.
(** Operations. *)
Lemma gs_op {X} G (m : M X) (o : op) : (forall w, snd (m w) = snd (run_op o w)) -> (forall t s, o <> OpDelete t s) -> (forall w, good w -> sat G w -> live_args w o) -> gsafe G m (fun _ => []).
Proof.
  intros E D L w Gw S. destruct (run_op_good w o Gw (L w Gw S)) as (H1 & _ & H2). specialize (H2 D). rewrite <- E in H1, H2.
  destruct (m w) as [[x|e] w']; cbn in *; auto. split; [exact H1|]. split; [exact H2|constructor].
Qed.

End Session.
