(** Proofs about export and import: what they do to the session. *)
From Verif Require Import Base LexM ParseM InterpM SpecParse Term2_P Value_P Witness_Parse_P WorldM SpecWorld World_P
  Registry_P Run_P Arr Arr_P ExportM SpecExport Export_P Export2_P Export3_P Export4_P Export5_P Export6_P.
From Coq Require Import Ascii Permutation.
Import List.

Section Export7.
Context {A : AlgOps} {O : PyOps} {C : CodeOps}.

(** *** Statements that only look at the session *)
Definition looks {X} (m : M X) (Q : world -> X -> Prop) : Prop :=
  forall w, match m w with (Ok x, w') => w' = w /\ Q w x | (Err _, w') => w' = w end.
Definition any {X} (w : world) (x : X) : Prop := True.

Lemma l_ret {X} (x : X) (Q : world -> X -> Prop) : (forall w, Q w x) -> looks (mret x) Q.
Proof. intros H w. cbn. auto. Qed.
Lemma l_raise {X} e (Q : world -> X -> Prop) : looks (mraise e) Q.
Proof. intros w. reflexivity. Qed.
Lemma l_lift {X} (r : res X) (Q : world -> X -> Prop) : (forall w x, r = Ok x -> Q w x) -> looks (mlift r) Q.
Proof. intros H w. unfold mlift. destruct r; auto. Qed.
Lemma l_opt {X} e (x : option X) (Q : world -> X -> Prop) : (forall w y, x = Some y -> Q w y) -> looks (mopt e x) Q.
Proof. intros H. destruct x; [apply l_ret; auto|apply l_raise]. Qed.
Lemma l_bind {X Y} (m : M X) (f : X -> M Y) Q R : looks m Q ->
  (forall w x, Q w x -> match f x w with (Ok y, w') => w' = w /\ R w y | (Err _, w') => w' = w end) -> looks (mbind m f) R.
Proof. intros H1 H2 w. unfold mbind. specialize (H1 w). destruct (m w) as [[x|e] w']; [destruct H1 as [-> H1]; apply H2, H1|exact H1]. Qed.
Lemma l_then {X Y} (m : M X) (f : X -> M Y) Q R : looks m Q -> (forall x, looks (f x) R) -> looks (mbind m f) R.
Proof. intros H1 H2. eapply l_bind; [exact H1|]. intros w x _. apply (H2 x w). Qed.
Lemma l_getobj i (Q : world -> obj -> Prop) : (forall w o, obj_of w i = Some o -> Q w o) -> looks (getobj i) Q.
Proof. intros H w. unfold getobj. destruct (obj_of w i) eqn:E; auto. Qed.
Lemma l_isinstance i k : looks (isinstance i k) any.
Proof. intros w. unfold isinstance. split; [reflexivity|exact I]. Qed.
Lemma l_weak {X} (m : M X) (Q R : world -> X -> Prop) : looks m Q -> (forall w x, Q w x -> R w x) -> looks m R.
Proof. intros H G w. specialize (H w). destruct (m w) as [[x|e] w']; [|exact H]. destruct H as [-> H]. auto. Qed.
Lemma l_any {X} (m : M X) Q : looks m Q -> looks m any.
Proof. intros H. eapply l_weak; [exact H|]. intros; exact I. Qed.

Lemma l_name i : looks (name_at i) any.
Proof. unfold name_at. eapply l_then; [apply (l_getobj _ any); intros; exact I|]. intros x. apply l_ret. intros; exact I. Qed.

Lemma l_comprehension {X} (f : X -> M (option (xkey * xval))) l : (forall x, looks (f x) any) -> forall d, looks (comprehension f l d) any.
Proof.
  intros H. induction l as [|x l IH]; intros d; cbn [comprehension]; [apply l_ret; intros; exact I|].
  eapply l_then; [apply H|]. intros p. apply IH.
Qed.

Lemma l_dict t : looks (tensor_to_dict t) any.
Proof.
  unfold tensor_to_dict. eapply l_then; [apply (l_getobj _ any); intros; exact I|]. intros o.
  eapply (l_then _ _ any).
  { intros w. apply (l_opt EAttributeError (cls_of w t) any); intros; exact I. }
  intros k. eapply l_then.
  { apply l_comprehension. intros p. eapply l_then; [apply l_isinstance|]. intros b. destruct (negb b); [apply l_ret; intros; exact I|].
    eapply l_then; [apply l_name|]. intros n. apply l_ret; intros; exact I. }
  intros comps. apply (l_then _ _ any).
  { destruct k; try (eapply l_then; [apply (l_opt _ _ any); intros; exact I|intros c; apply l_name]). apply l_ret; intros; exact I. }
  intros dc. cbv zeta.
  destruct k; try (eapply l_then; [apply (l_opt _ _ any); intros; exact I|intros m; eapply l_then; [apply l_name|intros n; apply l_ret; intros; exact I]]).
  eapply l_then.
  { apply l_comprehension. intros [i [[x y] z]]. eapply l_then; [apply l_name|]. intros n. apply l_ret; intros; exact I. }
  intros js. eapply l_then.
  { apply l_comprehension. intros p. eapply l_then; [apply l_name|]. intros n. apply l_ret; intros; exact I. }
  intros ts. apply l_ret; intros; exact I.
Qed.

Lemma looks_pure {X} (m : M X) Q w : looks m Q -> snd (m w) = w.
Proof. intros H. specialize (H w). destruct (m w) as [[x|e] w']; [destruct H|]; assumption. Qed.

Lemma l_export t : looks (export_to_string t) any.
Proof.
  unfold export_to_string. eapply l_then; [apply l_dict|]. intros d. eapply l_then; [apply l_name|]. intros n. apply l_ret; intros; exact I.
Qed.

Lemma l_mmap {X Y} (f : X -> M Y) l : (forall x, looks (f x) any) -> looks (mmap f l) any.
Proof.
  intros H. induction l as [|x l IH]; cbn [mmap]; [apply l_ret; intros; exact I|]. eapply l_then; [apply H|]. intros y.
  eapply l_then; [exact IH|]. intros ys. apply l_ret; intros; exact I.
Qed.

Lemma l_export_all : looks export_all_to_string any.
Proof.
  intros w. unfold export_all_to_string.
  match goal with |- match ?m w with _ => _ end => assert (L : looks m any); [|exact (L w)] end.
  eapply (l_then _ _ any).
  - apply l_mmap. intros t. eapply l_then; [apply l_name|]. intros n. eapply l_then; [apply l_dict|]. intros d. apply l_ret; intros; exact I.
  - intros l. apply l_ret; intros; exact I.
Qed.

Theorem export_changes_nothing w : (forall t, snd (export_to_string t w) = w) /\ snd (export_all_to_string w) = w.
Proof. split; [intros t; apply (looks_pure _ _ _ (l_export t))|apply (looks_pure _ _ _ l_export_all)]. Qed.

(** *** Reading collects registered objects only *)
Definition registered (w : world) (i : oid) : Prop := In i (insts w).
Definition args_live (w : world) (kw : kwargs) : Prop :=
  (forall i, k_coords kw = Some (AObj i) -> In i (insts w)) /\
  (forall i, k_metric kw = Some (AObj i) -> In i (insts w)) /\
  (forall i v, In (AObj i, v) (k_trans kw) -> In i (insts w)).

Lemma l_has_name i v : looks (has_name i v) any.
Proof. unfold has_name. eapply l_then; [apply l_name|]. intros n. apply l_ret; intros; exact I. Qed.

Lemma l_filter_named v l : looks (filter_named v l) (fun _ r => incl r l).
Proof.
  induction l as [|i l IH]; cbn [filter_named]; [apply l_ret; intros _; apply incl_refl|].
  eapply l_then; [apply l_has_name|]. intros b. eapply l_bind; [exact IH|]. intros w r Hr. cbn. split; [reflexivity|].
  destruct b; [intros x [->|X]; [left; reflexivity|right; apply Hr, X]|intros x X; right; apply Hr, X].
Qed.
Lemma l_all_named v : looks (all_named v) (fun w r => incl r (insts w)).
Proof. intros w. unfold all_named. exact (l_filter_named v (insts w) w). Qed.

Lemma l_find_named v l : looks (find_named v l) (fun _ r => forall i, r = Some i -> In i l).
Proof.
  induction l as [|i l IH]; cbn [find_named]; [apply l_ret; intros _ i; discriminate|].
  eapply l_then; [apply l_has_name|]. intros [|]; [apply l_ret; intros _ j E; injection E as ->; left; reflexivity|].
  eapply l_weak; [exact IH|]. intros w x H j E. right. apply H, E.
Qed.
Lemma l_first_named v : looks (first_named v) (fun w r => forall i, r = Some i -> In i (insts w)).
Proof. intros w. unfold first_named. exact (l_find_named v (insts w) w). Qed.

Lemma l_trans_arg l : looks (trans_arg l) (fun w r => forall i v, In (AObj i, v) r -> In i (insts w)).
Proof.
  induction l as [|[c rules] l IH]; cbn [trans_arg]; [apply l_ret; intros w i v []|].
  eapply l_bind; [apply l_all_named|]. intros w is His. pose proof (IH w) as H. unfold mbind. destruct (trans_arg l w) as [[r|e] w']; [|exact H].
  destruct H as [-> H]. cbn. split; [reflexivity|]. intros i v Hi. apply in_app_iff in Hi as [Hi|Hi]; [|apply (H i v Hi)].
  destruct is as [|j is]; [destruct Hi as [E|[]]; discriminate|]. apply in_map_iff in Hi as (x & E & X). injection E as -> _. apply His, X.
Qed.

Lemma l_metric_arg k v : looks (metric_arg k v) (fun w r => forall i, r = Some (AObj i) -> In i (insts w)).
Proof.
  unfold metric_arg. destruct k; try (apply l_ret; intros w i; discriminate);
    (eapply (l_then _ _ any); [apply l_lift; intros; exact I|]; intros m; eapply l_bind; [apply l_all_named|]; intros w l Hl; cbn; split; [reflexivity|];
     intros i E; destruct (rev l) as [|j r] eqn:Er; [discriminate|]; injection E as ->; apply Hl, in_rev; rewrite Er; left; reflexivity).
Qed.

Lemma l_read_tensor name tensor : looks (read_tensor name tensor) (fun w p => args_live w (snd p) /\ k_name (snd p) = name).
Proof.
  unfold read_tensor. repeat (eapply (l_then _ _ any); [first [apply l_lift|apply l_opt]; intros; exact I|]; intros ?).
  eapply l_bind; [apply l_metric_arg|]. intros w m Hm.
  assert (Lt : looks (match entry "CoordTransformations" x8 with Some v => let! l := mlift (items v) in trans_arg l | None => mret [] end) (fun w r => forall i v, In (AObj i, v) r -> In i (insts w))).
  { destruct (entry _ _); [eapply (l_then _ _ any); [apply l_lift; intros; exact I|intros ?; apply l_trans_arg]|apply l_ret; intros w' i v []]. }
  specialize (Lt w). unfold mbind at 1. destruct (match entry "CoordTransformations" x8 with Some v => let! l := mlift (items v) in trans_arg l | None => mret [] end w) as [[tr|e] w']; [|exact Lt].
  destruct Lt as [-> Lt]. cbn [mret]. unfold mret. split; [reflexivity|]. split; [|reflexivity]. split; [|split]; cbn [snd k_coords k_metric k_trans].
  - intros i. match goal with |- match ?k with _ => _ end = _ -> _ => destruct k end; discriminate.
  - exact Hm.
  - exact Lt.
Qed.

Definition read_names (d : list (val * val)) : list val :=
  filter (fun k => negb (key_same k (VS (chars "Options")))) (map fst d).

Lemma l_read_tensors d : looks (read_tensors d) (fun w l => Forall (fun p => args_live w (snd p)) l /\ map (fun p => k_name (snd p)) l = read_names d).
Proof.
  induction d as [|[name tensor] d IH]; cbn [read_tensors]; [apply l_ret; intros w; split; [constructor|reflexivity]|].
  unfold read_names in *. cbn [map fst filter]. destruct (key_same name (VS (chars "Options"))); [exact IH|]. cbn [negb].
  eapply l_bind; [apply l_read_tensor|]. intros w p (Hp & Np). pose proof (IH w) as H. unfold mbind.
  destruct (read_tensors d w) as [[l|e] w']; [|exact H]. destruct H as [-> (H & N)]. cbn. split; [reflexivity|]. split; [constructor; assumption|]. now rewrite Np, N.
Qed.

Lemma l_string n s : looks (string_to_tensor n s) (fun w l => Forall (fun p => args_live w (snd p)) l /\
  exists d, parse_str n s = Ok (VD d) /\ map (fun p => k_name (snd p)) l = read_names d).
Proof.
  unfold string_to_tensor. intros w. unfold mbind, mlift. destruct (parse_str n s) as [v|e]; [|reflexivity]. destruct v as [| | |d|]; try reflexivity. cbn [items].
  pose proof (l_read_tensors d w) as H. destruct (read_tensors d w) as [[l|e] w']; [|exact H]. destruct H as [-> (H & N)]. split; [reflexivity|]. split; [exact H|]. exists d. auto.
Qed.

(** *** The constructors as operations of the session *)
Lemma value_arg_live w v : live w (value_arg v).
Proof. destruct v as [e|t| | |]; cbn; try exact I. destruct (to_symbol e); exact I. Qed.

Lemma object_arg_live w a : (forall i, a = Some (AObj i) -> In i (insts w)) -> live w (object_arg a).
Proof. intros H. destruct a as [[v|i]|]; cbn [object_arg]; [apply value_arg_live|apply H; reflexivity|exact I]. Qed.

Lemma run_snd {X} (m : M X) w : snd ((m ;; mret tt) w) = snd (m w).
Proof. unfold mbind. destruct (m w) as [[x|e] w']; reflexivity. Qed.

Lemma construct_op k kw w : args_live w kw ->
  snd (construct k kw w) = w \/ exists o, live_args w o /\ snd (construct k kw w) = snd (run_op o w).
Proof.
  intros (Hc & Hm & Ht). unfold construct.
  destruct k.
  - destruct (all_some _) as [tr|] eqn:Es; [|left; reflexivity]. right.
    exists (OpCoordinates (value_arg (k_name kw)) (k_comps kw) (VTuple (k_indices kw)) (symbol_arg CCoordinates kw) tr). cbn [run_op live_args]. rewrite run_snd. split; [|reflexivity].
    revert tr Es. induction (k_trans kw) as [|[a v] l IH]; intros tr Es; [injection Es as <-; constructor|].
    cbn [map fst snd all_some] in Es. destruct a as [x|i]; [discriminate|]. destruct (all_some _) as [r|] eqn:Er; [|discriminate]. injection Es as <-.
    constructor; [apply (Ht i v); left; reflexivity|]. apply IH; [|reflexivity]. intros j u X. apply (Ht j u). right. exact X.
  - destruct (k_trans kw); [|left; reflexivity]. right. eexists (OpMetric _ _ _ _ _). cbn [run_op live_args]. rewrite run_snd. split; [|reflexivity]. apply object_arg_live, Hc.
  - destruct (k_trans kw); [|left; reflexivity]. right. eexists (OpTensor _ _ _ _ _ _). cbn [run_op live_args]. rewrite run_snd. split; [|reflexivity]. split; apply object_arg_live; assumption.
  - destruct (k_trans kw); [|left; reflexivity]. right. eexists (OpChristoffel _ _ _ _ _ _). cbn [run_op live_args]. rewrite run_snd. split; [|reflexivity]. split; apply object_arg_live; assumption.
  - destruct (k_trans kw); [|left; reflexivity]. right. eexists (OpLagrangian _ _ _ _ _ _). cbn [run_op live_args]. rewrite run_snd. split; [|reflexivity]. split; apply object_arg_live; assumption.
  - destruct (k_trans kw); [|left; reflexivity]. right. eexists (OpGeodesic _ _ _ _ _ _). cbn [run_op live_args]. rewrite run_snd. split; [|reflexivity]. split; apply object_arg_live; assumption.
Qed.

(** The part of import_from_string in front of the constructor. *)
Definition import_args (n : nat) (s : text) : M (cls * kwargs) :=
  let! l := string_to_tensor n s in
  let! (k, kw) := mopt EIndexError (hd_error l) in
  match k_coords kw with
  | Some (AVal v) =>
      let! i := first_named v in
      match i with
      | Some i => mret (k, set_k_coords (AObj i) kw)
      | None => mraise EException
      end
  | _ => mret (k, kw)
  end.

Lemma import_split n s w : import_from_string n s w = (let! p := import_args n s in construct (fst p) (snd p)) w.
Proof.
  unfold import_from_string, import_args. unfold mbind. destruct (string_to_tensor n s w) as [[l|e] w1]; [|reflexivity].
  destruct l as [|[k kw] l]; [reflexivity|]. cbn [hd_error mopt]. unfold mret.
  destruct (k_coords kw) as [[v|i]|]; try reflexivity. destruct (first_named v w1) as [[[i|]|e] w2]; reflexivity.
Qed.

Lemma l_import_args n s : looks (import_args n s) (fun w p => args_live w (snd p)).
Proof.
  unfold import_args. eapply l_bind; [apply l_string|]. intros w l (F & _). destruct l as [|[k kw] l]; [reflexivity|]. inversion F as [|? ? G _]; subst. cbn [snd] in G.
  cbn [hd_error mopt]. unfold mbind at 1, mret at 1.
  destruct (k_coords kw) as [[v|i]|] eqn:E; [|cbn; auto..].
  pose proof (l_first_named v w) as H. unfold mbind. destruct (first_named v w) as [[[i|]|e] w2]; [|destruct H as [-> _]; reflexivity|exact H].
  destruct H as [-> H]. cbn. split; [reflexivity|]. destruct G as (G1 & G2 & G3). split; [|split; assumption]. cbn. intros j Ej. injection Ej as <-. apply H. reflexivity.
Qed.

Theorem import_reachable n s w : reachable w -> reachable (snd (import_from_string n s w)).
Proof.
  intros R. rewrite import_split. unfold mbind. pose proof (l_import_args n s w) as H.
  destruct (import_args n s w) as [[[k kw]|e] w']; [destruct H as [-> H]|subst w'; exact R].
  cbn [fst snd] in *. destruct (construct_op k kw w H) as [E|(o & Lv & E)]; rewrite E; [exact R|]. apply reach_step; assumption.
Qed.

(** *** What a constructor adds *)
Lemma construct_integrity k kw w : integrity w -> args_live w kw -> integrity (snd (construct k kw w)).
Proof.
  intros I H. destruct (construct_op k kw w H) as [E|(o & Lv & E)]; rewrite E; [exact I|]. apply run_op_integrity; assumption.
Qed.

Lemma metric_name name comps coords indices symbol w i w' : new_metric name comps coords indices symbol w = (Ok i, w') ->
  exists o s, name = VStr s /\ w' = fresh_world w CMetric o /\ o_name o = s /\ WorldM.o_symbol o = sym_of symbol /\ i = length (heap w).
Proof.
  intros E. unfold new_metric in E. unfold mbind at 1, mlift at 1 in E.
  destruct (validate_metric _ _ _ _) as [[]|e] eqn:Ev; [|discriminate].
  assert (N : exists s, name = VStr s).
  { unfold validate_metric in Ev. destruct (as_array _); [|discriminate]. unfold validate_object in Ev at 1. destruct name; try discriminate. eauto. }
  destruct N as [s ->]. unfold mbind at 1 in E.
  destruct (base_ctor_spec CMetric (VStr s) (mat_to_array comps) coords indices symbol None w) as [[e H]|(c & a & x & Hc & Hk & Ha & Hx & Hv & H)]; rewrite H in E; [discriminate|].
  clear H Hx Hv Ev.
  set (o0 := mkObj (name_of (VStr s)) (sym_of symbol) (default_indices indices (rank a)) (rank a) (Some c) None
    [(c, [(default_indices indices (rank a), a)])] [] [] []) in E.
  assert (Ho0 : obj_of (fresh_world w CMetric o0) (length (heap w)) = Some o0) by (rewrite obj_of_fresh, Nat.eqb_refl; reflexivity).
  unfold mbind at 1, getobj in E. rewrite Ho0 in E.
  assert (Hput : forall o1 o2, put (length (heap w)) o2 (fresh_world w CMetric o1) = (Ok tt, fresh_world w CMetric o2)).
  { intros o1 o2. unfold put, fresh_world. cbn [heap insts].
    rewrite nth_error_app2 by lia. rewrite Nat.sub_diag. cbn [nth_error].
    f_equal. f_equal. clear. induction (heap w) as [|y l IH]; cbn; [reflexivity|]. rewrite IH. reflexivity. }
  unfold mbind at 1 in E. rewrite Hput in E.
  cbn [o_coords set_metric o0 mopt] in E. unfold mbind at 1, mret at 1 in E.
  cbn [o_comps set_metric o0 dget] in E. rewrite Nat.eqb_refl in E.
  cbn [mopt] in E. unfold mbind at 1, mret at 1 in E. cbn [o_indices set_metric o0 dget] in E. rewrite cfg_eqb_refl in E.
  cbn [mopt] in E. unfold mbind at 1, mret at 1 in E. unfold mbind at 1 in E. rewrite Hput in E.
  destruct indices; try discriminate. unfold mbind at 1, mlift in E. destruct (ainv a) as [gi|]; [|discriminate].
  unfold mbind at 1 in E. rewrite Hput in E. unfold mret in E. injection E as <- <-. eexists _, s. repeat split; reflexivity.
Qed.

Lemma value_text v s : value_arg v = VStr s -> exists t, v = VS t /\ s = string_of_list_ascii t.
Proof. destruct v as [e|t| | |]; cbn; try discriminate; [destruct (to_symbol e); discriminate|]. intros E. injection E as <-. eauto. Qed.

Lemma construct_named k kw w i w' : construct k kw w = (Ok i, w') ->
  exists t o, k_name kw = VS t /\ w' = fresh_world w k o /\ o_name o = string_of_list_ascii t.
Proof.
  unfold construct. intros E.
  assert (T : forall k', k <> CCoordinates -> k <> CMetric -> new_tensor_as k' (value_arg (k_name kw)) (k_comps kw) (object_arg (k_metric kw)) (object_arg (k_coords kw)) (VTuple (k_indices kw)) (symbol_arg k kw) w = (Ok i, w') ->
     exists t o, k_name kw = VS t /\ w' = fresh_world w k' o /\ o_name o = string_of_list_ascii t).
  { intros k' _ _ E'.
    destruct (new_tensor_spec k' (value_arg (k_name kw)) (k_comps kw) (object_arg (k_metric kw)) (object_arg (k_coords kw)) (VTuple (k_indices kw)) (symbol_arg k kw) w)
      as [[e H]|(m & c & a & x & Hm & Hmc & Hc & Hcc & Ha & Hx & Hv & H)]; rewrite H in E'; [discriminate|].
    injection E' as _ <-. unfold validate_base, validate_object in Hv. destruct (value_arg (k_name kw)) as [|s| | | | | | |] eqn:V; try discriminate.
    apply value_text in V as (t & -> & ->). exists t. eexists. split; [reflexivity|]. split; reflexivity. }
  destruct k; [|destruct (k_trans kw) as [|? ?] eqn:Et; [|discriminate]..].
  - destruct (all_some _) as [tr|]; [|discriminate].
    destruct (new_coordinates_spec (value_arg (k_name kw)) (k_comps kw) (VTuple (k_indices kw)) (symbol_arg CCoordinates kw) tr w) as [[e H]|(a & Ha & Hr & H)].
    { rewrite H in E. discriminate. }
    destruct (value_arg (k_name kw)) as [|s| | | | | | |] eqn:V; try (unfold new_coordinates, mbind, mlift, validate_coordinates, validate_object in E; discriminate).
    rewrite H in E. injection E as _ <-. apply value_text in V as (t & -> & ->). exists t. eexists. split; [reflexivity|]. split; reflexivity.
  - destruct (metric_name _ _ _ _ _ _ _ _ E) as (o & s & V & -> & N & _). apply value_text in V as (t & -> & ->). exists t, o. auto.
  - apply T; [discriminate..|exact E].
  - apply T; [discriminate..|exact E].
  - apply T; [discriminate..|exact E].
  - apply T; [discriminate..|exact E].
Qed.

Definition names (w : world) : list string := map (name_in w) (insts w).

Lemma names_fresh w k o : registry_ok w -> names (fresh_world w k o) = names w ++ [o_name o].
Proof.
  intros R. unfold names. change (insts (fresh_world w k o)) with (insts w ++ [length (heap w)]). rewrite map_app. cbn [map]. f_equal.
  - apply map_ext_in. intros i Hi. unfold name_in. rewrite obj_of_fresh. pose proof (registered_lt w i R Hi). destruct (Nat.eqb_spec i (length (heap w))); [lia|reflexivity].
  - unfold name_in. rewrite obj_of_fresh, Nat.eqb_refl. reflexivity.
Qed.

Lemma live_incl w w' kw : incl (insts w) (insts w') -> args_live w kw -> args_live w' kw.
Proof. intros H (H1 & H2 & H3). split; [|split]; eauto. Qed.

Lemma construct_step k kw w : integrity w -> args_live w kw ->
  match construct k kw w with
  | (Ok i, w') => integrity w' /\ incl (insts w) (insts w') /\ exists t, k_name kw = VS t /\ names w' = names w ++ [string_of_list_ascii t]
  | (Err _, w') => integrity w'
  end.
Proof.
  intros I H. pose proof (construct_integrity k kw w I H) as J. destruct (construct k kw w) as [[i|e] w'] eqn:E; [|exact J]. cbn [snd] in J.
  split; [exact J|]. destruct (construct_named _ _ _ _ _ E) as (t & o & N & -> & No). split; [intros x X; apply in_app_iff; left; exact X|].
  exists t. split; [exact N|]. rewrite names_fresh by apply I. now rewrite No.
Qed.

Lemma mfor_construct (sel : cls * kwargs -> bool) (g : kwargs -> kwargs) f l :
  (forall p, f p = if sel p then construct (fst p) (g (snd p)) ;; mret tt else mret tt) ->
  (forall kw, k_name (g kw) = k_name kw) -> (forall w kw, args_live w kw -> args_live w (g kw)) ->
  forall w, integrity w -> Forall (fun p => args_live w (snd p)) l ->
  match mfor f l w with
  | (Ok _, w') => integrity w' /\ incl (insts w) (insts w') /\
      exists ts, map (fun p => k_name (snd p)) (filter sel l) = map VS ts /\ names w' = names w ++ map string_of_list_ascii ts
  | (Err _, w') => integrity w'
  end.
Proof.
  intros Hf Hn Hg. induction l as [|p l IH]; intros w I F; cbn [mfor].
  { cbn. split; [exact I|]. split; [apply incl_refl|]. exists []. split; [reflexivity|]. cbn. now rewrite app_nil_r. }
  inversion F as [|? ? F1 F2]; subst. unfold mbind at 1. rewrite Hf. cbn [filter]. destruct (sel p).
  - unfold mbind at 1. pose proof (construct_step (fst p) (g (snd p)) w I (Hg _ _ F1)) as S1.
    destruct (construct (fst p) (g (snd p)) w) as [[i|e] w1]; [|exact S1]. unfold mret. destruct S1 as (I1 & L1 & t & T1 & N1). rewrite Hn in T1.
    assert (F2' : Forall (fun p => args_live w1 (snd p)) l) by (eapply Forall_impl; [|exact F2]; intros q; apply live_incl, L1).
    pose proof (IH w1 I1 F2') as S2. destruct (mfor f l w1) as [[u|e] w2]; [|exact S2]. destruct S2 as (I2 & L2 & ts & T2 & N2).
    split; [exact I2|]. split; [eapply incl_tran; eassumption|]. exists (t :: ts). cbn [map]. rewrite T1, T2, N2, N1, <- app_assoc. auto.
  - unfold mret. exact (IH w I F2).
Qed.

Lemma mmap_keep f l :
  (forall p w, args_live w (snd p) -> match f p w with
     | (Ok q, w') => w' = w /\ args_live w (snd q) /\ fst q = fst p /\ k_name (snd q) = k_name (snd p)
     | (Err _, w') => w' = w end) ->
  forall w, Forall (fun p => args_live w (snd p)) l ->
  match mmap f l w with
  | (Ok l', w') => w' = w /\ Forall (fun p => args_live w (snd p)) l' /\
      map (fun p : cls * kwargs => (fst p, k_name (snd p))) l' = map (fun p : cls * kwargs => (fst p, k_name (snd p))) l
  | (Err _, w') => w' = w
  end.
Proof.
  intros H. induction l as [|p l IH]; intros w F; cbn [mmap]; [cbn; auto|]. inversion F as [|? ? F1 F2]; subst.
  unfold mbind at 1. pose proof (H p w F1) as H1. destruct (f p w) as [[q|e] w1]; [|exact H1]. destruct H1 as (-> & H1 & E1 & E2).
  unfold mbind at 1. pose proof (IH w F2) as H2. destruct (mmap f l w) as [[l'|e] w1]; [|exact H2]. destruct H2 as (-> & H2 & E3). cbn. split; [reflexivity|].
  split; [constructor; assumption|]. now rewrite E1, E2, E3.
Qed.

Lemma live_coords w i kw : In i (insts w) -> args_live w kw -> args_live w (set_k_coords (AObj i) kw).
Proof. intros Hi (H1 & H2 & H3). split; [|split; assumption]. cbn. intros j E. injection E as <-. exact Hi. Qed.
Lemma live_metric w i kw : In i (insts w) -> args_live w kw -> args_live w (set_k_metric (AObj i) kw).
Proof. intros Hi (H1 & H2 & H3). split; [exact H1|]. split; [|exact H3]. cbn. intros j E. injection E as <-. exact Hi. Qed.

Lemma live_no_trans w kw : args_live w kw -> args_live w (set_k_trans [] kw).
Proof. intros (H1 & H2 & H3). split; [exact H1|]. split; [exact H2|]. intros i v []. Qed.

Lemma some_keep p w : args_live w (snd p) -> match some_coords p w with
     | (Ok q, w') => w' = w /\ args_live w (snd q) /\ fst q = fst p /\ k_name (snd q) = k_name (snd p)
     | (Err _, w') => w' = w end.
Proof.
  intros H. unfold some_coords. destruct (k_coords (snd p)) as [[[e|t| | |]|]|]; try (cbn; auto; fail).
  unfold mbind. pose proof (l_all_named (VS t) w) as Q. destruct (all_named (VS t) w) as [[l|e] w']; [|exact Q]. destruct Q as [-> Q].
  destruct l as [|i l]; cbn; auto. split; [reflexivity|]. split; [apply live_coords; [apply Q; left; reflexivity|exact H]|auto].
Qed.
Lemma need_keep p w : args_live w (snd p) -> match need_coords p w with
     | (Ok q, w') => w' = w /\ args_live w (snd q) /\ fst q = fst p /\ k_name (snd q) = k_name (snd p)
     | (Err _, w') => w' = w end.
Proof.
  intros H. unfold need_coords. destruct (k_coords (snd p)) as [[[e|t| | |]|]|]; try (cbn; auto; fail).
  unfold mbind. pose proof (l_first_named (VS t) w) as Q. destruct (first_named (VS t) w) as [[[i|]|e] w']; [|destruct Q as [-> _]; reflexivity|exact Q].
  destruct Q as [-> Q]. cbn. split; [reflexivity|]. split; [apply live_coords; [apply Q; reflexivity|exact H]|auto].
Qed.
Lemma metric_keep p w : args_live w (snd p) -> match need_metric p w with
     | (Ok q, w') => w' = w /\ args_live w (snd q) /\ fst q = fst p /\ k_name (snd q) = k_name (snd p)
     | (Err _, w') => w' = w end.
Proof.
  intros H. unfold need_metric. destruct (k_metric (snd p)) as [[[e|t| | |]|]|]; try (cbn; auto; fail).
  unfold mbind. pose proof (l_first_named (VS t) w) as Q. destruct (first_named (VS t) w) as [[[i|]|e] w']; [|destruct Q as [-> _]; reflexivity|exact Q].
  destruct Q as [-> Q]. cbn. split; [reflexivity|]. split; [apply live_metric; [apply Q; reflexivity|exact H]|auto].
Qed.

(** *** Transformations keep the names *)
Definition NK (L : list oid) (N : list string) (w : world) : Prop := II L w /\ map (name_in w) L = N.

Lemma add_names i c r w j : name_in (snd (add_coord_transformation i c r w)) j = name_in w j.
Proof.
  unfold add_coord_transformation. destruct c; try reflexivity. unfold mbind at 1, isinstance. destruct (negb _); [reflexivity|]. destruct (i =? i0); [reflexivity|].
  unfold mbind, getobj. destruct (obj_of w i) as [o|] eqn:Eo; [|reflexivity].
  assert (P : forall o', o_name o' = o_name o -> name_in (snd (put i o' w)) j = name_in w j).
  { intros o' N. destruct (put_spec w i o o' Eo) as (w' & E & _ & _ & _ & Hj). rewrite E. cbn [snd]. unfold name_in. rewrite Hj.
    destruct (Nat.eqb_spec i j) as [->|]; [rewrite Eo; exact N|reflexivity]. }
  destruct r; [destruct (forallb _ _)|destruct (dmem _ _ _)]; try reflexivity; apply P; reflexivity.
Qed.

Lemma add_NK L N i c r : (forall c', c = VObj c' -> In c' L) -> hoare (NK L N) (add_coord_transformation i c r) (fun _ => NK L N) (NK L N).
Proof.
  intros H w [I Nm]. pose proof (add_transformation_II L i c r H w I) as J. pose proof (fun j => add_names i c r w j) as K.
  destruct (add_coord_transformation i c r w) as [[u|e] w']; cbn [snd] in K; (split; [exact J|]); rewrite <- Nm; apply map_ext; exact K.
Qed.

Lemma h_mfor {X} P (f : X -> M unit) l : (forall x, In x l -> hoare P (f x) (fun _ => P) P) -> hoare P (mfor f l) (fun _ => P) P.
Proof.
  induction l as [|x l IH]; intros H; cbn [mfor]; [apply h_ret; auto|]. apply (h_bind P _ _ _ (fun _ => P)); [apply H; left; reflexivity|]. intros u. apply IH. intros y Y. apply H. right. exact Y.
Qed.

Lemma h_looks {X} P (m : M X) Q : looks m Q -> hoare P m (fun x w => P w /\ Q w x) P.
Proof. intros H w Hw. specialize (H w). destruct (m w) as [[x|e] w']; [destruct H as [-> H]; auto|subst w'; exact Hw]. Qed.

Lemma adds_NK L N i l : (forall j v, In (AObj j, v) l -> In j L) -> hoare (NK L N) (add_transformations i l) (fun _ => NK L N) (NK L N).
Proof.
  intros H. unfold add_transformations. apply h_mfor. intros [a v] X. cbn [fst snd].
  eapply (h_bind _ _ _ _ (fun j w => NK L N w /\ forall i, j = Some i -> In i L)).
  - destruct a as [x|j]; [|apply h_ret; intros w Hw; split; [exact Hw|]; intros ? E; injection E as <-; eapply H, X].
    intros w Hw. pose proof (l_first_named x w) as Q. destruct (first_named x w) as [[j|e] w']; [|subst w'; exact Hw]. destruct Q as [-> Q].
    split; [exact Hw|]. destruct Hw as [[_ <-] _]. exact Q.
  - intros [j|]; [|apply h_raise; tauto]. intros w [Hw Hj]. apply (add_NK L N i (VObj j)); [|exact Hw]. intros c' E. injection E as <-. apply Hj. reflexivity.
Qed.

Lemma phase_NK L N (l : list (cls * kwargs)) : Forall (fun p => forall i v, In (AObj i, v) (k_trans (snd p)) -> In i L) l ->
  hoare (NK L N) (mfor (fun p => match fst p, k_trans (snd p) with
                 | CCoordinates, _ :: _ =>
                     fun w => mfor (fun i =>
                       let! n := has_name i (k_name (snd p)) in
                       let! b := isinstance i CCoordinates in
                       if n && b then add_transformations i (k_trans (snd p)) else mret tt)
                       (insts w) w
                 | _, _ => mret tt
                 end) l) (fun _ => NK L N) (NK L N).
Proof.
  intros F. apply h_mfor. intros [k kw] X. rewrite Forall_forall in F. specialize (F _ X). cbn [fst snd] in *.
  assert (R : hoare (NK L N) (mret tt) (fun _ => NK L N) (NK L N)) by (apply h_ret; auto).
  destruct k; try exact R. destruct (k_trans kw) as [|t ts]; [exact R|].
  intros w Hw. match goal with |- match mfor ?f ?l w with _ => _ end => assert (J : hoare (NK L N) (mfor f l) (fun _ => NK L N) (NK L N)); [|exact (J w Hw)] end.
  apply h_mfor. intros i _. apply (h_bind _ _ _ _ (fun _ => NK L N)).
  { intros v Hv. pose proof (l_has_name i (k_name kw) v) as Q. destruct (has_name i (k_name kw) v) as [[b|e] v']; [destruct Q as [-> _]|subst v']; exact Hv. }
  intros n. apply (h_bind _ _ _ _ (fun _ => NK L N)); [intros v Hv; exact Hv|]. intros b. destruct (n && b); [|apply h_ret; auto].
  apply (adds_NK L N i (t :: ts) F).
Qed.

(** *** The whole import *)
Definition class_name (p : cls * kwargs) : cls * val := (fst p, k_name (snd p)).
Definition other (k : cls) : bool := negb (cls_eqb k CCoordinates || cls_eqb k CMetric).

Lemma filter_names (sel : cls -> bool) l :
  map (fun p : cls * kwargs => k_name (snd p)) (filter (fun p => sel (fst p)) l) = map snd (filter (fun q => sel (fst q)) (map class_name l)).
Proof. induction l as [|p l IH]; cbn [map filter]; [reflexivity|]. unfold class_name at 1. cbn [fst]. destruct (sel (fst p)); cbn [map]; now rewrite IH. Qed.

Lemma three_parts (l : list (cls * val)) :
  Permutation l (filter (fun q => cls_eqb (fst q) CCoordinates) l ++ filter (fun q => cls_eqb (fst q) CMetric) l ++ filter (fun q => other (fst q)) l).
Proof.
  induction l as [|[k v] l IH]; [constructor|]. cbn [filter fst].
  destruct k; cbn [cls_eqb other orb negb app]; first [apply perm_skip, IH|apply Permutation_cons_app, IH|rewrite app_assoc in *; apply Permutation_cons_app, IH].
Qed.

Theorem import_all_outcome n s w : integrity w ->
  match import_all_from_string n s w with
  | (Ok ids, w') => integrity w' /\ ids = insts w' /\
      exists d l, parse_str n s = Ok (VD d) /\ Permutation (map VS l) (read_names d) /\ names w' = map string_of_list_ascii l
  | (Err _, w') => integrity w'
  end.
Proof.
  intros I. destruct (clear_instances_spec w (proj1 I)) as (w0 & Cl & I0). unfold import_all_from_string. rewrite (bind_to _ _ w _ _ Cl).
  assert (J0 : integrity w0). { split; [split; [rewrite I0; constructor|rewrite I0; intros i []]|rewrite I0; intros i o j []]. }
  assert (N0 : names w0 = []) by (unfold names; now rewrite I0).
  clear Cl I I0 w. pose proof (l_string n s w0) as H. unfold mbind at 1. destruct (string_to_tensor n s w0) as [[l|e] w']; [|subst w'; exact J0].
  destruct H as [-> (F & d & P & Nd)]. unfold mbind at 1.
  pose proof (mfor_construct (fun p => cls_eqb (fst p) CCoordinates) (set_k_trans []) (fun p => if cls_eqb (fst p) CCoordinates
                 then construct (fst p) (set_k_trans [] (snd p)) ;; mret tt else mret tt) l (fun p => eq_refl) (fun kw => eq_refl)
     live_no_trans w0 J0 F) as S1.
  destruct (mfor _ l w0) as [[u|e] w1]; [|exact S1]. destruct S1 as (J1 & L1 & t1 & T1 & N1).
  assert (F1 : Forall (fun p => args_live w1 (snd p)) l) by (eapply Forall_impl; [|exact F]; intros q; apply live_incl, L1).
  unfold mbind at 1. pose proof (mmap_keep _ l some_keep w1 F1) as S2. destruct (mmap some_coords l w1) as [[l2|e] w2]; [|subst w2; exact J1]. destruct S2 as (-> & F2 & E2).
  unfold mbind at 1.
  assert (K : NK (insts w1) (names w1) w1) by (split; [split; [exact J1|reflexivity]|reflexivity]).
  assert (F2' : Forall (fun p => forall i v, In (AObj i, v) (k_trans (snd p)) -> In i (insts w1)) l2) by (eapply Forall_impl; [|exact F2]; intros q (_ & _ & Q); exact Q).
  pose proof (phase_NK _ _ l2 F2' w1 K) as S3. destruct (mfor _ l2 w1) as [[u2|e] w3]; [|apply S3]. destruct S3 as [[J3 L3] N3].
  assert (F3 : Forall (fun p => args_live w3 (snd p)) l2) by (eapply Forall_impl; [|exact F2]; intros q; apply live_incl; rewrite L3; apply incl_refl).
  rewrite <- L3 in N3 at 1. change (names w3 = names w1) in N3.
  unfold mbind at 1. pose proof (mmap_keep _ l2 need_keep w3 F3) as S4. destruct (mmap need_coords l2 w3) as [[l4|e] w4]; [|subst w4; exact J3]. destruct S4 as (-> & F4 & E4).
  unfold mbind at 1.
  pose proof (mfor_construct (fun p => cls_eqb (fst p) CMetric) (fun kw => kw) (fun p => if cls_eqb (fst p) CMetric
                 then construct (fst p) (snd p) ;; mret tt else mret tt) l4 (fun p => eq_refl) (fun kw => eq_refl) (fun w kw H => H) w3 J3 F4) as S5.
  destruct (mfor _ l4 w3) as [[u3|e] w5]; [|exact S5]. destruct S5 as (J5 & L5 & t5 & T5 & N5).
  assert (F5 : Forall (fun p => args_live w5 (snd p)) l4) by (eapply Forall_impl; [|exact F4]; intros q; apply live_incl, L5).
  unfold mbind at 1. pose proof (mmap_keep _ l4 metric_keep w5 F5) as S6. destruct (mmap need_metric l4 w5) as [[l6|e] w6]; [|subst w6; exact J5]. destruct S6 as (-> & F6 & E6).
  unfold mbind at 1.
  pose proof (mfor_construct (fun p => other (fst p)) (fun kw => kw) (fun p => match fst p with
                 | CCoordinates | CMetric => mret tt
                 | _ => construct (fst p) (snd p) ;; mret tt
                 end) l6 (fun p => match p with (CCoordinates,_) => eq_refl | (CMetric,_) => eq_refl | (CTensor,_) => eq_refl | (CChristoffel,_) => eq_refl | (CLagrangian,_) => eq_refl | (CGeodesic,_) => eq_refl end)
                 (fun kw => eq_refl) (fun w kw H => H) w5 J5 F6) as S7.
  destruct (mfor _ l6 w5) as [[u4|e] w7]; [|exact S7]. destruct S7 as (J7 & L7 & t7 & T7 & N7).
  split; [exact J7|]. split; [reflexivity|]. exists d, (t1 ++ t5 ++ t7). split; [exact P|]. split.
  - rewrite (filter_names (fun k => cls_eqb k CCoordinates)) in T1. rewrite (filter_names (fun k => cls_eqb k CMetric)) in T5. rewrite (filter_names other) in T7.
    change (map class_name l6 = map class_name l4) in E6. change (map class_name l4 = map class_name l2) in E4. change (map class_name l2 = map class_name l) in E2.
    rewrite E6, E4, E2 in T7. rewrite E4, E2 in T5. rewrite !map_app, <- T1, <- T5, <- T7, <- !map_app, <- Nd.
    apply Permutation_sym. replace (map (fun p => k_name (snd p)) l) with (map snd (map class_name l)) by (rewrite map_map; reflexivity). apply Permutation_map, three_parts.
  - rewrite N7, N5, N3, N1, N0, !map_app. cbn [app]. now rewrite <- app_assoc.
Qed.

(** *** Different names *)
Definition apart (a b : val) : Prop := key_same a b = false.

Lemma dict_set_apart k v d : ForallOrdPairs apart (map fst d) -> ForallOrdPairs apart (map fst (dict_set k v d)).
Proof.
  assert (Fk : forall a d, Forall (apart a) (map fst d) -> apart a k -> Forall (apart a) (map fst (dict_set k v d))).
  { intros a d0. induction d0 as [|[k' v'] d0 IH]; intros Fa Ak; cbn [dict_set map fst]; [constructor; auto|].
    inversion Fa; subst. destruct (key_same k' k); cbn [map fst]; constructor; auto. }
  induction d as [|[k' v'] d IH]; intros F; cbn [dict_set map fst]; [constructor; constructor|].
  inversion F as [|? ? F1 F2]; subst. destruct (key_same k' k) eqn:E; cbn [map fst]; [exact F|]. constructor; [|apply IH, F2]. apply Fk; [exact F1|exact E].
Qed.

Lemma build_apart l : forall d r, ForallOrdPairs apart (map fst d) -> build_dict l d = Ok (VD r) -> ForallOrdPairs apart (map fst r).
Proof.
  induction l as [|[k v] l IH]; intros d r F E; cbn [build_dict] in E; [injection E as <-; exact F|].
  destruct k as [k|]; [|discriminate]. destruct v as [v|]; [|discriminate]. cbn [rbind] in E. destruct (hashable k); [|discriminate].
  eapply IH; [|exact E]. apply dict_set_apart, F.
Qed.

Lemma visit_apart a d : visit a = Ok (VD d) -> ForallOrdPairs apart (map fst d).
Proof.
  assert (B : forall f x y, op2 f x y <> Ok (VD d)).
  { intros f x y. unfold op2. destruct (expr_arg x) as [u|]; [|discriminate]. cbn [rbind]. destruct (expr_arg y) as [v|]; [|discriminate]. cbn [rbind]. destruct (f u v); discriminate. }
  assert (G : forall x, py_neg x <> Ok (VD d)).
  { intros x. unfold py_neg. destruct x; try discriminate. destruct (o_neg e); discriminate. }
  destruct a; cbn [visit]; intros E; try discriminate;
    repeat match type of E with rbind ?r _ = _ => destruct r as [?|?]; cbn [rbind] in E; [|discriminate] end;
    try discriminate; try (exfalso; eapply B; exact E); try (exfalso; eapply G; exact E).
  - match type of E with sympify_val ?x = _ => destruct x; try discriminate end. cbn in E. destruct (o_sympify t); discriminate.
  - destruct (build_dict _ _) as [r|[]] eqn:Eb; try discriminate.
    + injection E as ->. eapply build_apart; [|exact Eb]. constructor.
    + destruct (rall _); [|discriminate]. cbn [rbind] in E. destruct (rall _); discriminate.
  - match type of E with match ?x with _ => _ end = _ => destruct x; [destruct (find _ _)|]; discriminate end.
  - destruct (text_eqb _ _); [destruct (derivative_value _ _); discriminate|]. destruct (sympify_args _); [|discriminate]. cbn in E. destruct (o_apply _ _); discriminate.
Qed.

Lemma apart_filter f l : ForallOrdPairs apart l -> ForallOrdPairs apart (filter f l).
Proof.
  induction 1 as [|a l F1 F2 IH]; cbn [filter]; [constructor|]. destruct (f a); [|exact IH]. constructor; [|exact IH].
  rewrite Forall_forall in *. intros x X. apply F1. apply filter_In in X. apply X.
Qed.

Lemma apart_texts l : ForallOrdPairs apart (map VS l) -> NoDup l.
Proof.
  induction l as [|t l IH]; intros F; [constructor|]. inversion F as [|? ? F1 F2]; subst. constructor; [|apply IH, F2].
  intros X. rewrite Forall_forall in F1. specialize (F1 (VS t) (in_map VS _ _ X)). unfold apart in F1. cbn in F1. rewrite text_eqb_refl in F1. discriminate.
Qed.

Theorem import_all_names n s w ids w' : integrity w -> import_all_from_string n s w = (Ok ids, w') ->
  ids = insts w' /\ NoDup (map (name_in w') ids).
Proof.
  intros I E. pose proof (import_all_outcome n s w I) as H. rewrite E in H. destruct H as (_ & -> & d & l & P & Pm & N). split; [reflexivity|].
  change (NoDup (names w')). rewrite N. apply FinFun.Injective_map_NoDup.
  { intros x y X. rewrite <- (list_ascii_of_string_of_list_ascii x), X. apply list_ascii_of_string_of_list_ascii. }
  unfold parse_str in P. destruct (parse _ _) as [a|]; [|discriminate]. cbn [rbind] in P. apply visit_apart in P.
  assert (T : exists l', read_names d = map VS l' /\ Permutation l' l).
  { destruct (Permutation_map_inv VS l (Permutation_sym Pm)) as (l' & El & Pl). exists l'. split; [exact El|exact (Permutation_sym Pl)]. }
  destruct T as (l' & El & Pl). eapply Permutation_NoDup; [exact Pl|]. apply apart_texts. rewrite <- El. apply apart_filter, P.
Qed.

Theorem import_all_integrity n s w : integrity w -> integrity (snd (import_all_from_string n s w)).
Proof.
  intros I. pose proof (import_all_outcome n s w I) as H. destruct (import_all_from_string n s w) as [[ids|e] w']; [apply H|exact H].
Qed.

End Export7.
