(** Sessions of all public functions keep the invariants. *)
From Verif Require Import Alg Alg_P Arr Arr_P Spec UtilsM Arr2_P TensorM WorldM SpecWorld World_P Registry_P History_P CalcM SpecCalc Keep_P Calc_P Run_P Typed_P Self_P CurvM GeodM LineM InfoM CurveM ShowM Base LexM ParseM InterpM ExportM Session_P Session2_P Session3_P Session4_P Session5_P Session6_P SpecSession Export7_P.
Local Open Scope nat_scope.

Section Session7.
Context {A : AlgOps} {O : PyOps} {C : CodeOps} {N : NumSubs A}.

(** *** The invariant without the registry *)
Lemma delete_incl w t s : incl (insts (snd (delete t s w))) (insts w).
Proof.
  assert (D : forall X p (l : list X), incl (del_nth p l) l).
  { intros X p l. revert p. induction l as [|x l IH]; intros [|p]; cbn; try apply incl_refl; [apply incl_tl, incl_refl|].
    intros y [->|Y]; [left; reflexivity|right; eapply IH, Y]. }
  unfold delete; cbv zeta. destruct (find _ _) as [q|]; [destruct (obj_of w q), (obj_of w t); apply incl_refl|].
  destruct (obj_of w t); [|destruct s; [destruct (index_of _ _ _)|]]; try apply incl_refl; try apply D. destruct (index_of _ _ _); [apply D|apply incl_refl].
Qed.
Definition ss (w : world) : Prop := sound w /\ selfr w /\ Rank_P.ranks w /\ Home_P.homes w /\ Stored_P.keyeds w.
Lemma run_op_ss w (o : op) : ss w -> ss (snd (run_op o w)).
Proof.
  intros (S & F & Kr & Kh & Kk). split; [apply run_op_sound, S|]. split; [|split; [exact (Rank_P.grown_ranks _ _ (Rank_P.run_op_grown w o (proj1 S)) Kr)|
    split; [exact (Home_P.run_op_homes w o (proj1 S) Kh)|exact (Stored_P.run_op_keyeds w o (proj1 S) (Stored_P.rank_all _ Kr) Kk)]]]. destruct (run_op_shape w o (proj1 S)) as [(t & s & ->)|[H|(k & o' & H & Hm)]].
  - cbn [run_op]. destruct (delete_carried w t s) as [Cc Co]. intros i oi Hi Ho Hk. destruct (Co i oi Ho) as (o1 & H1 & _ & ->).
    rewrite Cc in Hk. apply (F i o1); auto. apply (delete_incl w t s), Hi.
  - eapply steady_self; eassumption.
  - rewrite H. intros i oi Hi. rewrite obj_of_fresh. destruct (Nat.eqb_spec i (length (heap w))) as [->|Ni].
    + intros E. injection E as <-. rewrite cls_fresh_new. intros K. apply Hm. congruence.
    + intros Ho. rewrite cls_of_fresh by exact Ni. apply F; [|exact Ho]. cbn in Hi. apply in_app_iff in Hi as [Hi|[Hi|[]]]; [exact Hi|congruence].
Qed.
Lemma construct_some k kw w : snd (construct k kw w) = w \/ exists o, snd (construct k kw w) = snd (run_op o w).
Proof.
  unfold construct. destruct k.
  - destruct (all_some _) as [tr|] eqn:Es; [|left; reflexivity]. right. eexists (OpCoordinates _ _ _ _ _). cbn [run_op]. rewrite run_snd. reflexivity.
  - destruct (k_trans kw); [|left; reflexivity]. right. eexists (OpMetric _ _ _ _ _). cbn [run_op]. rewrite run_snd. reflexivity.
  - destruct (k_trans kw); [|left; reflexivity]. right. eexists (OpTensor _ _ _ _ _ _). cbn [run_op]. rewrite run_snd. reflexivity.
  - destruct (k_trans kw); [|left; reflexivity]. right. eexists (OpChristoffel _ _ _ _ _ _). cbn [run_op]. rewrite run_snd. reflexivity.
  - destruct (k_trans kw); [|left; reflexivity]. right. eexists (OpLagrangian _ _ _ _ _ _). cbn [run_op]. rewrite run_snd. reflexivity.
  - destruct (k_trans kw); [|left; reflexivity]. right. eexists (OpGeodesic _ _ _ _ _ _). cbn [run_op]. rewrite run_snd. reflexivity.
Qed.

(** *** Importing *)
Notation inv m := (hoare ss m (fun _ => ss) ss).
Lemma v_bind {X Y} (m : M X) (k : X -> M Y) : inv m -> (forall x, inv (k x)) -> inv (mbind m k).
Proof. intros H1 H2. eapply h_bind; [exact H1|exact H2]. Qed.
Lemma v_same {X} (m : M X) : (forall w, snd (m w) = w) -> inv m.
Proof. intros H w Hw. specialize (H w). destruct (m w) as [[x|e] w']; cbn in H; subst w'; exact Hw. Qed.
Lemma v_looks {X} (m : M X) Q : looks m Q -> inv m.
Proof. intros H. apply v_same. intros w. apply (looks_pure _ _ _ H). Qed.
Lemma v_construct k kw : inv (construct k kw).
Proof.
  intros w Hw. pose proof (construct_some k kw w) as H. assert (G : ss (snd (construct k kw w))) by (destruct H as [->|(o & ->)]; [exact Hw|apply run_op_ss, Hw]).
  destruct (construct k kw w) as [[x|e] w']; exact G.
Qed.
Lemma v_mfor {X} (f : X -> M unit) l : (forall x, inv (f x)) -> inv (mfor f l).
Proof. intros H. apply h_mfor. intros x _. apply H. Qed.
Lemma v_ret {X} (x : X) : inv (mret x).
Proof. apply v_same. reflexivity. Qed.
Lemma v_mmap {X Y} (f : X -> M Y) l : (forall x, inv (f x)) -> inv (ExportM.mmap f l).
Proof.
  intros H. induction l as [|x l IH]; cbn [ExportM.mmap]; [apply v_ret|]. apply v_bind; [apply H|]. intros y. apply v_bind; [exact IH|]. intros ys. apply v_ret.
Qed.
Lemma v_adds i l : inv (add_transformations i l).
Proof.
  unfold add_transformations. apply v_mfor. intros [a v]. apply v_bind.
  - destruct a; cbn [fst]; [eapply v_looks, l_first_named|apply v_ret].
  - intros [j|]; [|apply v_same; reflexivity]. intros w Hw. pose proof (run_op_ss w (OpAdd i (VObj j) (Some (rules_arg v))) Hw) as G. cbn [run_op snd] in *.
    destruct (add_coord_transformation i (VObj j) (Some (rules_arg v)) w) as [[x|e] w']; exact G.
Qed.
Lemma same_raise {X} e w : snd (mraise (X := X) e w) = w.
Proof. reflexivity. Qed.

Lemma clear_good w : good w -> good (snd (clear_instances w)).
Proof.
  intros Gw. unfold clear_instances. pose proof (s_delete_results [] true w Gw (Forall_nil _)) as H1. unfold mbind at 1. destruct (delete_results true w) as [[x|e] w1]; [|apply H1].
  destruct H1 as (G1 & _). pose proof (s_times 4 (pass (fun i => try_delete i true)) (s_pass _ (fun i => s_try [] i true)) w1 G1 (Forall_nil _)) as H2. unfold mbind.
  destruct (times 4 _ w1) as [[y|e] w2]; [|apply H2]. destruct H2 as (G2 & _). cbn [snd]. split.
  - split; [split; [constructor|intros i []]|intros i o j []].
  - apply (g_snd _ G2).
  - intros i o [].
  - exact (g_rank _ G2).
  - exact (g_home _ G2).
  - exact (g_key _ G2).
Qed.

Lemma import_all_good n s w : good w -> good (snd (import_all_from_string n s w)).
Proof.
  intros Gw. pose proof (import_all_integrity n s w (g_int _ Gw)) as I.
  assert (Q : ss (snd (import_all_from_string n s w))).
  { unfold import_all_from_string. unfold mbind at 1. pose proof (clear_good w Gw) as G1. destruct (clear_instances w) as [[u|e] w1]; cbn [snd] in G1.
    2:{ split; [apply (g_snd _ G1)|split; [apply (g_self _ G1)|split; [apply (g_rank _ G1)|split; [apply (g_home _ G1)|apply (g_key _ G1)]]]]. }
    assert (S1 : ss w1) by (split; [apply (g_snd _ G1)|split; [apply (g_self _ G1)|split; [apply (g_rank _ G1)|split; [apply (g_home _ G1)|apply (g_key _ G1)]]]]).
    match goal with |- ss (snd (?m w1)) => assert (V : inv m); [|specialize (V w1 S1); destruct (m w1) as [[x|e] w']; exact V] end.
    apply v_bind; [eapply v_looks, l_string|]. intros l. apply v_bind.
    { apply v_mfor. intros p. destruct (cls_eqb _ _); [|apply v_ret]. apply v_bind; [apply v_construct|]. intros; apply v_ret. }
    intros _. apply v_bind.
    { apply v_mmap. intros p. unfold some_coords. destruct (k_coords (snd p)) as [[[e|t| | |]|]|]; try apply v_ret. apply v_bind; [eapply v_looks, l_all_named|]. intros; apply v_ret. }
    intros l2. apply v_bind.
    { apply v_mfor. intros p. destruct (fst p); try apply v_ret. destruct (k_trans (snd p)) as [|t ts]; [apply v_ret|].
      intros v Hv. match goal with |- match mfor ?f ?l v with _ => _ end => assert (J : inv (mfor f l)); [|exact (J v Hv)] end.
      apply v_mfor. intros i. apply v_bind; [eapply v_looks, l_has_name|]. intros b1. apply v_bind; [eapply v_looks, l_isinstance|]. intros b2. destruct (b1 && b2); [apply v_adds|apply v_ret]. }
    intros _. apply v_bind.
    { apply v_mmap. intros p. unfold need_coords. destruct (k_coords (snd p)) as [[[e|t| | |]|]|]; try apply v_ret. apply v_bind; [eapply v_looks, l_first_named|]. intros [i|]; [apply v_ret|apply v_same; reflexivity]. }
    intros l3. apply v_bind.
    { apply v_mfor. intros p. destruct (cls_eqb _ _); [|apply v_ret]. apply v_bind; [apply v_construct|]. intros; apply v_ret. }
    intros _. apply v_bind.
    { apply v_mmap. intros p. unfold need_metric. destruct (k_metric (snd p)) as [[[e|t| | |]|]|]; try apply v_ret. apply v_bind; [eapply v_looks, l_first_named|]. intros [i|]; [apply v_ret|apply v_same; reflexivity]. }
    intros l4. apply v_bind.
    { apply v_mfor. intros p. destruct (fst p); try apply v_ret; (apply v_bind; [apply v_construct|]; intros; apply v_ret). }
    intros _. apply v_same. reflexivity. }
  split; [exact I|apply Q..].
Qed.

Lemma construct_fresh k kw w i w' : construct k kw w = (Ok i, w') -> exists o, i = length (heap w) /\ w' = fresh_world w k o.
Proof.
  intros E. destruct (construct_named _ _ _ _ _ E) as (t & o & _ & -> & _). exists o. split; [|reflexivity].
  unfold construct in E. 
  assert (T : forall k' a b c d e f, new_tensor_as k' a b c d e f w = (Ok i, fresh_world w k o) -> i = length (heap w)).
  { intros k' a b c d e f H. destruct (new_tensor_spec k' a b c d e f w) as [[x X]|(m' & c' & a' & y & _ & _ & _ & _ & _ & _ & _ & X)]; rewrite X in H; [discriminate H|]. injection H as <-. reflexivity. }
  destruct k; [|destruct (k_trans kw); [|discriminate E]..].
  - destruct (all_some _) as [tr|]; [|discriminate E]. match type of E with ?m w = _ => match m with new_coordinates ?a ?b ?c ?d ?e => destruct (new_coordinates_spec a b c d e w) as [[x X]|(y & _ & _ & X)] end end; rewrite X in E; [discriminate E|]. injection E as <-. reflexivity.
  - destruct (metric_name _ _ _ _ _ _ _ _ E) as (o' & s & _ & _ & _ & _ & ->). reflexivity.
  - eapply T, E.
  - eapply T, E.
  - eapply T, E.
  - eapply T, E.
Qed.

Lemma s_import G n s : safe G (import_from_string n s) Session4_P.registered.
Proof.
  intros w Gw _. rewrite import_split. unfold mbind. pose proof (l_import_args n s w) as H.
  destruct (import_args n s w) as [[[k kw]|e] w']; [destruct H as [-> H]|subst w'; split; [exact Gw|apply eff_refl]]. cbn [fst snd] in *.
  assert (Q : good (snd (construct k kw w)) /\ eff w (snd (construct k kw w))).
  { destruct (construct_op k kw w H) as [E|(o & Lv & E)]; rewrite E; [split; [exact Gw|apply eff_refl]|]. destruct (run_op_good w o Gw Lv) as (H1 & H2 & _). auto. }
  destruct (construct k kw w) as [[i|e] w'] eqn:E; cbn [snd] in Q; [|exact Q]. destruct Q as [Q1 Q2]. split; [exact Q1|]. split; [exact Q2|].
  destruct (construct_fresh _ _ _ _ _ E) as (o & -> & ->). unfold Session4_P.registered.
  assert (Hi : In (length (heap w)) (insts (fresh_world w k o))) by (apply in_app_iff; right; left; reflexivity).
  facts; cbn; intros t X; injection X as <-; [exact Hi|]. split; [apply (registered_lt _ _ (good_ok _ Q1) Hi)|]. split; [auto|]. intros; exact I.
Qed.

End Session7.
