(** Proofs about export and import: a whole session. *)
From Verif Require Import Base LexM ParseM InterpM SpecParse Value_P Witness_Parse_P WorldM SpecWorld World_P
  Registry_P Run_P Arr Arr_P ExportM SpecExport Export_P Export2_P Export3_P Export4_P.
From Coq Require Import Ascii.
Import List.

Section Export5.
Context {A : AlgOps} {O : PyOps} {C : CodeOps}.

(** *** Worlds with objects appended *)
Definition grow (w : world) (l : list (cls * obj)) : world :=
  mkW (heap w ++ map (fun p => (fst p, Some (snd p))) l) (insts w ++ seq (length (heap w)) (length l)).

Lemma grow_nil w : grow w [] = w.
Proof. unfold grow. cbn. rewrite !app_nil_r. destruct w; reflexivity. Qed.

Lemma grow_snoc w l x : grow w (l ++ [x]) = fresh_world (grow w l) (fst x) (snd x).
Proof.
  unfold grow, fresh_world. cbn [heap insts]. rewrite map_app, app_length, app_assoc. cbn [map length].
  rewrite seq_app, <- app_assoc. cbn [seq]. rewrite <- !app_assoc. rewrite app_length, map_length. reflexivity.
Qed.

Lemma grow_heap w l : length (heap (grow w l)) = length (heap w) + length l.
Proof. cbn. now rewrite app_length, map_length. Qed.

Lemma grow_at w l p : nth_error (heap (grow w l)) (length (heap w) + p) = option_map (fun p => (fst p, Some (snd p))) (nth_error l p).
Proof. cbn. rewrite nth_error_app2 by lia. replace (length (heap w) + p - length (heap w)) with p by lia. apply nth_error_map. Qed.

Lemma set_nth_app {X} (a b : list X) p x : set_nth (length a + p) x (a ++ b) = a ++ set_nth p x b.
Proof. induction a as [|y a IH]; cbn; [reflexivity|]. now rewrite IH. Qed.

Lemma set_nth_mid {X} (pre post : list X) x y : set_nth (length pre) x (pre ++ y :: post) = pre ++ x :: post.
Proof. induction pre as [|z pre IH]; cbn; [reflexivity|]. now rewrite IH. Qed.

(** *** Loops *)
Lemma mmap_run {X Y} (f : X -> M Y) (g : X -> Y) w l : Forall (fun x => f x w = (Ok (g x), w)) l -> mmap f l w = (Ok (map g l), w).
Proof.
  induction 1 as [|x l H F IH]; [reflexivity|]. cbn [mmap map]. rewrite (bind_to _ _ _ _ _ H), (bind_to _ _ _ _ _ IH). reflexivity.
Qed.

Lemma mmap_rel {I X Y} (R : I -> X -> Prop) (R' : I -> Y -> Prop) (f : X -> M Y) w is l : Forall2 R is l ->
  (forall i x, In i is -> R i x -> exists y, f x w = (Ok y, w) /\ R' i y) ->
  exists l', mmap f l w = (Ok l', w) /\ Forall2 R' is l'.
Proof.
  intros F H. induction F as [|i x is l Hx F IH]; [exists []; split; [reflexivity|constructor]|].
  destruct (H i x (or_introl eq_refl) Hx) as (y & E & Hy). destruct IH as (l' & E' & F'); [intros j z J; apply H; right; exact J|].
  exists (y :: l'). split; [|constructor; auto]. cbn [mmap]. rewrite (bind_to _ _ _ _ _ E), (bind_to _ _ _ _ _ E'). reflexivity.
Qed.

Lemma mfor_app {X} (f : X -> M unit) l1 l2 w w1 : mfor f l1 w = (Ok tt, w1) -> mfor f (l1 ++ l2) w = mfor f l2 w1.
Proof.
  revert w. induction l1 as [|x l1 IH]; intros w; cbn [mfor app]; [intros E; injection E as ->; reflexivity|].
  unfold mbind. destruct (f x w) as [[[]|] w']; [apply IH|discriminate].
Qed.

Lemma phase {X} (q : oid -> bool) (body : X -> M unit) (R : oid -> X -> Prop) (W : list oid -> world) start is l :
  Forall2 R is l ->
  (forall i x pre post, R i x -> filter q is = pre ++ i :: post -> body x (W (start ++ pre)) = (Ok tt, W (start ++ pre ++ [i]))) ->
  (forall i x w, In i is -> R i x -> q i = false -> body x w = (Ok tt, w)) ->
  mfor body l (W start) = (Ok tt, W (start ++ filter q is)).
Proof.
  intros F H N.
  enough (G : forall is1 is2 l2, is = is1 ++ is2 -> Forall2 R is2 l2 -> mfor body l2 (W (start ++ filter q is1)) = (Ok tt, W (start ++ filter q is))).
  { specialize (G [] is l eq_refl F). cbn [filter] in G. now rewrite app_nil_r in G. }
  intros is1 is2 l2 E F2. revert is1 E. induction F2 as [|i x is2 l2 Hx F2 IH]; intros is1 E.
  - rewrite app_nil_r in E. subst is1. reflexivity.
  - cbn [mfor]. destruct (q i) eqn:Q.
    + rewrite (bind_to _ _ _ tt (W (start ++ filter q is1 ++ [i]))).
      * specialize (IH (is1 ++ [i])). rewrite <- app_assoc in IH. specialize (IH E). rewrite filter_app in IH. cbn [filter] in IH. rewrite Q in IH. exact IH.
      * apply (H i x _ (filter q is2) Hx). rewrite E, filter_app. cbn [filter]. now rewrite Q.
    + rewrite (bind_to _ _ _ tt (W (start ++ filter q is1))).
      * specialize (IH (is1 ++ [i])). rewrite <- app_assoc in IH. specialize (IH E). rewrite filter_app in IH. cbn [filter] in IH. rewrite Q, app_nil_r in IH. exact IH.
      * apply (N i); [rewrite E; apply in_elt|exact Hx|exact Q].
Qed.

(** *** Positions *)
Fixpoint pos (i : nat) (l : list nat) : nat :=
  match l with [] => 0 | j :: l' => if i =? j then 0 else S (pos i l') end.

Lemma pos_at pre i post : ~ In i pre -> pos i (pre ++ i :: post) = length pre.
Proof.
  induction pre as [|j pre IH]; cbn; intros N; [now rewrite Nat.eqb_refl|].
  destruct (Nat.eqb_spec i j) as [->|]; [exfalso; auto|]. rewrite IH by tauto. reflexivity.
Qed.

Lemma pos_inj l i j : In i l -> pos i l = pos j l -> i = j.
Proof.
  induction l as [|x l IH]; cbn; intros I E; [destruct I|].
  destruct (Nat.eqb_spec i x) as [->|N1], (Nat.eqb_spec j x) as [->|N2]; try discriminate; [reflexivity|].
  injection E as E. apply IH; [destruct I as [->|I]; [contradiction|exact I]|exact E].
Qed.

Section Session.
Context (L : CodeLaws) (w : world) (P : oid -> portrait) (SB : session_back w P) (w0 : world) (I0 : insts w0 = []).

Definition isc (i : oid) : bool := match P i with PCoords _ _ => true | _ => false end.
Definition ism (i : oid) : bool := match P i with PMetric _ _ _ _ _ => true | _ => false end.
Definition isr (i : oid) : bool := match P i with PTensor _ _ _ _ _ _ => true | _ => false end.
Definition order := filter isc (insts w) ++ filter ism (insts w) ++ filter isr (insts w).
Definition phi (i : oid) : oid := length (heap w0) + pos i order.

Definition obj_p (p : portrait) : obj := match p with PCoords _ o | PMetric _ _ o _ _ | PTensor _ _ _ _ o _ => o end.
Definition full (i : oid) : list (oid * list (string * K)) := map (fun e => (phi (fst e), snd e)) (o_trans (obj_p (P i))).

Definition ko (T : oid -> list (oid * list (string * K))) (i : oid) : cls * obj :=
  match P i with
  | PCoords n o => (CCoordinates, coords_copy o (phi i) n (T i))
  | PMetric n c o a gi => (CMetric, metric_copy o (phi i) (phi c) a gi)
  | PTensor n c m k o a => (k, tensor_copy o (phi c) (phi m) a)
  end.
Definition W T (l : list oid) : world := grow w0 (map (ko T) l).

Lemma sb_obj i : In i (insts w) -> obj_of w i = Some (obj_p (P i)).
Proof.
  intros I. destruct SB as (_ & _ & _ & H). destruct (H i I) as [_ H']. destruct (P i); cbn in *; [apply H'|apply H'|apply H'].
Qed.
Lemma sb_name i : In i (insts w) -> name_in w i = o_name (obj_p (P i)).
Proof. intros I. unfold name_in. now rewrite (sb_obj i I). Qed.
Lemma sb_plain i : In i (insts w) -> plain (o_name (obj_p (P i))).
Proof.
  intros I. destruct SB as (_ & _ & _ & H). destruct (H i I) as [_ H']. destruct (P i); cbn in *; [apply H'|apply H'|apply H'].
Qed.
Lemma sb_nodup : NoDup (insts w).
Proof. apply SB. Qed.

Lemma order_in i : In i order <-> In i (insts w).
Proof.
  unfold order. rewrite !in_app_iff, !filter_In. unfold isc, ism, isr. destruct (P i); intuition discriminate.
Qed.

Lemma order_nodup : NoDup order.
Proof.
  unfold order. apply nodup_app'; [apply NoDup_filter, sb_nodup|apply nodup_app'; try apply NoDup_filter, sb_nodup|].
  - intros i. rewrite !filter_In. unfold ism, isr. destruct (P i); intuition discriminate.
  - intros i. rewrite in_app_iff, !filter_In. unfold ism, isr, isc. destruct (P i); intuition discriminate.
Qed.

Lemma phi_at pre i post : order = pre ++ i :: post -> phi i = length (heap w0) + length pre.
Proof.
  intros E. unfold phi. rewrite E. f_equal. apply pos_at. pose proof order_nodup as N. rewrite E in N. apply NoDup_remove_2 in N.
  intros I. apply N. rewrite in_app_iff. auto.
Qed.

Lemma phi_inj i j : In i (insts w) -> phi i = phi j -> i = j.
Proof. intros I E. apply (pos_inj order); [apply order_in, I|]. unfold phi in E. lia. Qed.

Lemma map_phi_aux pre post : order = pre ++ post -> map phi pre = seq (length (heap w0)) (length pre).
Proof.
  revert post. induction pre as [|i pre IH] using rev_ind; intros post E; [reflexivity|].
  rewrite <- app_assoc in E. rewrite map_app, app_length. cbn [map length]. rewrite (IH _ E), seq_app. cbn [seq]. now rewrite (phi_at pre i post E).
Qed.

Lemma W_insts T pre post : order = pre ++ post -> insts (W T pre) = map phi pre.
Proof. intros E. unfold W, grow. cbn [insts]. rewrite I0, map_length, (map_phi_aux pre post E). reflexivity. Qed.

Lemma W_heap T pre : length (heap (W T pre)) = length (heap w0) + length pre.
Proof. unfold W. now rewrite grow_heap, map_length. Qed.

Lemma W_at T pre post i : order = pre ++ post -> In i pre -> nth_error (heap (W T pre)) (phi i) = Some (fst (ko T i), Some (snd (ko T i))).
Proof.
  intros E I. apply in_split in I as (l1 & l2 & ->). assert (E' : order = l1 ++ i :: (l2 ++ post)) by (rewrite E, <- app_assoc; reflexivity).
  rewrite (phi_at l1 i _ E'). unfold W. rewrite grow_at, map_app. rewrite nth_error_app2 by (rewrite map_length; lia). rewrite map_length, Nat.sub_diag. reflexivity.
Qed.

Lemma W_obj T pre post i : order = pre ++ post -> In i pre -> obj_of (W T pre) (phi i) = Some (snd (ko T i)).
Proof. intros E I. unfold obj_of. now rewrite (W_at T pre post i E I). Qed.
Lemma W_cls T pre post i : order = pre ++ post -> In i pre -> cls_of (W T pre) (phi i) = Some (fst (ko T i)).
Proof. intros E I. unfold cls_of. now rewrite (W_at T pre post i E I). Qed.

Lemma W_live T pre post : order = pre ++ post -> registered_live (W T pre).
Proof.
  intros E i I. rewrite (W_insts T pre post E) in I. apply in_map_iff in I as (j & <- & J). rewrite (W_obj T pre post j E J). discriminate.
Qed.

Lemma ko_name T i : o_name (snd (ko T i)) = o_name (obj_p (P i)).
Proof. unfold ko. destruct (P i); reflexivity. Qed.

Lemma W_name T pre post i : order = pre ++ post -> In i pre -> name_in (W T pre) (phi i) = name_in w i.
Proof.
  intros E I. unfold name_in at 1. rewrite (W_obj T pre post i E I), ko_name. symmetry. apply sb_name. apply order_in. rewrite E, in_app_iff. auto.
Qed.

Lemma names_inj i j : In i (insts w) -> In j (insts w) -> name_in w i = name_in w j -> i = j.
Proof.
  intros I J E. destruct SB as (_ & _ & N & _). clear -I J E N. induction (insts w) as [|x l IH]; [destruct I|]. cbn in N. inversion N as [|? ? N1 N2]; subst.
  destruct I as [->|I], J as [->|J]; auto; exfalso; apply N1; [rewrite E|rewrite <- E]; apply in_map; assumption.
Qed.

Lemma W_named T pre post c : order = pre ++ post -> In c pre -> objects_named (W T pre) (name_in w c) = [phi c].
Proof.
  intros E I. unfold objects_named. rewrite (W_insts T pre post E).
  assert (In' : forall j, In j pre -> In j (insts w)) by (intros j J; apply order_in; rewrite E, in_app_iff; auto).
  assert (G : forall l, incl l pre -> filter (fun i => String.eqb (name_in (W T pre) i) (name_in w c)) (map phi l)
     = map phi (filter (fun j => j =? c) l)).
  { induction l as [|j l IH]; intros Hl; [reflexivity|]. cbn [map filter]. rewrite (W_name T pre post j E) by (apply Hl; left; reflexivity).
    rewrite IH by (intros x X; apply Hl; right; exact X).
    destruct (Nat.eqb_spec j c) as [->|N]; [now rewrite String.eqb_refl|].
    destruct (String.eqb_spec (name_in w j) (name_in w c)) as [Eq|_]; [|reflexivity].
    exfalso. apply N. apply names_inj; [apply In', Hl; left; reflexivity|apply In', I|exact Eq]. }
  rewrite G by (intros x X; exact X). apply in_split in I as (l1 & l2 & ->).
  pose proof order_nodup as N. rewrite E, <- app_assoc in N. cbn in N. apply NoDup_remove_2 in N.
  rewrite filter_app. cbn [filter]. rewrite Nat.eqb_refl.
  assert (Z : forall l, ~ In c l -> filter (fun j => j =? c) l = []).
  { induction l as [|j l IH]; cbn; intros Nl; [reflexivity|]. destruct (Nat.eqb_spec j c); [exfalso; auto|]. apply IH. tauto. }
  rewrite !Z; [reflexivity| |]; intros X; apply N; rewrite !in_app_iff; auto.
Qed.

Lemma W_coords T pre post c n o : order = pre ++ post -> In c pre -> P c = PCoords n o -> length (o_syms o) = n -> coordinate_system (W T pre) (phi c) n.
Proof.
  intros E I Pc Hl. split; [rewrite (W_cls T pre post c E I); unfold ko; rewrite Pc; reflexivity|].
  eexists _, _, _. split; [apply (W_obj T pre post c E I)|]. unfold ko. rewrite Pc. cbn [snd coords_copy o_comps dget]. rewrite Nat.eqb_refl.
  split; [reflexivity|]. split; [reflexivity|]. cbn. rewrite map_length. exact Hl.
Qed.

Lemma in_coords c : In c (insts w) -> cls_of w c = Some CCoordinates -> In c (filter isc (insts w)).
Proof.
  intros I Cc. apply filter_In. split; [exact I|]. destruct SB as (_ & _ & _ & H). destruct (H c I) as [_ H']. unfold isc. destruct (P c); [reflexivity| |].
  - destruct H' as [(_ & B & _) _]. congruence.
  - destruct H' as (_ & (B1 & B2 & _) & _). congruence.
Qed.

Lemma in_metrics c : In c (insts w) -> cls_of w c = Some CMetric -> In c (filter ism (insts w)).
Proof.
  intros I Cc. apply filter_In. split; [exact I|]. destruct SB as (_ & _ & _ & H). destruct (H c I) as [_ H']. unfold ism. destruct (P c); [|reflexivity|].
  - destruct H' as [(B & _) _]. congruence.
  - destruct H' as (Nk & (B1 & B2 & _) & _). congruence.
Qed.

Lemma coords_dim c n : In c (insts w) -> coordinate_system w c n -> exists o, P c = PCoords n o /\ length (o_syms o) = n.
Proof.
  intros I (Cc & o & d & x & Ho & D1 & D2 & Hn). pose proof (in_coords c I Cc) as Ic. apply filter_In in Ic as [_ Ic]. unfold isc in Ic.
  destruct SB as (_ & _ & _ & H). destruct (H c I) as [_ H']. destruct (P c) as [n' o'| |]; try discriminate.
  destruct H' as [(_ & Ho' & _ & _ & Cs & _ & Hl & _) _]. assert (o' = o) by congruence. subst o'. rewrite Cs in D1. cbn in D1. rewrite Nat.eqb_refl in D1.
  injection D1 as <-. cbn in D2. injection D2 as <-. cbn in Hn. rewrite map_length in Hn. exists o. split; [congruence|congruence].
Qed.

(** *** The arguments, stage by stage *)
Definition trans_texts (tr : list (string * val)) : list (arg * val) := map (fun p => (AVal (VS (chars (fst p))), snd p)) tr.

Definition arg_of (ca ma : oid -> arg) (i : oid) (x : cls * kwargs) : Prop :=
  match P i with
  | PCoords n o => exists sx tr, to_symbol sx = Some (o_symbol o) /\ map fst tr = map (fun e => name_in w (fst e)) (o_trans o) /\
      Forall2 (fun p e => rules_value (snd p) (snd e)) tr (o_trans o) /\
      x = (CCoordinates, mkKw (VS (chars (o_name o))) [1]%Z (VSyms [n] (o_syms o)) (Some (VE sx)) None None (trans_texts tr))
  | PMetric n c o a gi => exists v sx, as_array v = Some a /\ mat_to_array v = v /\ to_symbol sx = Some (o_symbol o) /\
      x = (CMetric, mkKw (VS (chars (o_name o))) (o_indices o) v (Some (VE sx)) (Some (ca c)) None [])
  | PTensor n c m k o a => exists v sx, as_array v = Some a /\ mat_to_array v = v /\ to_symbol sx = Some (o_symbol o) /\
      x = (k, mkKw (VS (chars (o_name o))) (o_indices o) v (Some (VE sx)) (Some (ca c)) (Some (ma m)) [])
  end.

Definition by_name (i : oid) : arg := AVal (VS (chars (name_in w i))).
Definition by_copy (i : oid) : arg := AObj (phi i).

Lemma integ i o j : In i (insts w) -> obj_of w i = Some o -> refers o j -> In j (insts w).
Proof. destruct SB as ([_ H] & _). apply H. Qed.

Lemma need c : In c (insts w) -> cls_of w c = Some CCoordinates -> exists l1 l2, filter isc (insts w) = l1 ++ c :: l2.
Proof. intros I Cc. apply in_split, in_coords; auto. Qed.

(** Phase 1 *)
Lemma phase1 l : Forall2 (arg_of by_name by_name) (insts w) l ->
  mfor (fun p => if cls_eqb (fst p) CCoordinates then construct (fst p) (set_k_trans [] (snd p)) ;; mret tt else mret tt) l w0
  = (Ok tt, W (fun _ => []) (filter isc (insts w))).
Proof.
  intros F. replace w0 with (W (fun _ => []) []) at 1 by (unfold W; apply grow_nil).
  apply (phase isc _ (arg_of by_name by_name) (W (fun _ => [])) [] (insts w) l F).
  - intros i x pre post R E. cbn [app]. assert (Q : In i (filter isc (insts w))) by (rewrite E; apply in_elt). apply filter_In in Q as [Ii Q].
    unfold isc in Q. unfold arg_of in R. destruct (P i) as [n o| |] eqn:Pi; try discriminate. destruct R as (sx & tr & Ts & _ & _ & ->).
    cbn [fst snd cls_eqb set_k_trans k_name k_indices k_comps k_symbol k_coords k_metric].
    destruct SB as (_ & _ & _ & H). destruct (H i Ii) as [_ H']. rewrite Pi in H'. destruct H' as [(_ & _ & _ & _ & _ & _ & Hl & _) _].
    rewrite (bind_to _ _ _ _ _ (construct_coords (W (fun _ => []) pre) o sx n [] [] None None Hl Ts (Forall2_nil _))).
    unfold mret. f_equal. unfold W at 3. rewrite map_app. cbn [map]. rewrite grow_snoc. fold (W (fun _ => []) pre). unfold ko. rewrite Pi. cbn [fst snd].
    rewrite W_heap. erewrite (phi_at pre i). 2:{ unfold order. rewrite E, <- app_assoc. reflexivity. } reflexivity.
  - intros i x w' Ii R Q. unfold isc in Q. unfold arg_of in R. destruct SB as (_ & _ & _ & H). destruct (H i Ii) as [_ H'].
    destruct (P i) as [n o|n c o a gi|n c m k o a]; [discriminate| |].
    + destruct R as (v & sx & _ & _ & _ & ->). reflexivity.
    + destruct R as (v & sx & _ & _ & _ & ->). destruct H' as (_ & (Nk & _) & _). cbn [fst]. destruct k; [contradiction|reflexivity..].
Qed.

(** Phase 2 *)
Lemma phase2 T l : Forall2 (arg_of by_name by_name) (insts w) l ->
  exists l', mmap some_coords l (W T (filter isc (insts w))) = (Ok l', W T (filter isc (insts w))) /\ Forall2 (arg_of by_copy by_name) (insts w) l'.
Proof.
  intros F. apply (mmap_rel _ _ _ _ _ _ F). intros i x Ii R.
  assert (G : forall c, In c (insts w) -> cls_of w c = Some CCoordinates ->
     all_named (VS (chars (name_in w c))) (W T (filter isc (insts w))) = (Ok [phi c], W T (filter isc (insts w)))).
  { intros c Ic Cc. rewrite all_named_run by (eapply W_live; reflexivity). erewrite W_named; [reflexivity|reflexivity|apply in_coords; auto]. }
  destruct SB as (_ & _ & _ & H). destruct (H i Ii) as [_ H']. unfold arg_of in *. destruct (P i) as [n o|n c o a gi|n c m k o a] eqn:Pi.
  - exists x. split; [|exact R]. destruct R as (sx & tr & _ & _ & _ & ->). reflexivity.
  - destruct R as (v & sx & V1 & V2 & Ts & ->). eexists. split; [|exists v, sx; split; [exact V1|split; [exact V2|split; [exact Ts|reflexivity]]]].
    destruct H' as (B & (Cc & _) & _). unfold some_coords. cbn [fst snd k_coords by_name]. rewrite (bind_to _ _ _ _ _ (G c (integ i o c Ii ltac:(apply B) ltac:(right; right; left; apply B)) Cc)).
    reflexivity.
  - destruct R as (v & sx & V1 & V2 & Ts & ->). eexists. split; [|exists v, sx; split; [exact V1|split; [exact V2|split; [exact Ts|reflexivity]]]].
    destruct H' as (_ & B & (Cc & _) & _). unfold some_coords. cbn [fst snd k_coords by_name]. rewrite (bind_to _ _ _ _ _ (G c (integ i o c Ii ltac:(apply B) ltac:(right; right; left; apply B)) Cc)).
    reflexivity.
Qed.

(** Phase 3 *)
Definition upd (T : oid -> list (oid * list (string * K))) i x : oid -> list (oid * list (string * K)) := fun j => if j =? i then x else T j.

Lemma W_ext T T' l : (forall i, In i l -> T i = T' i) -> W T l = W T' l.
Proof. intros H. unfold W. f_equal. apply map_ext_in. intros i I. unfold ko. destruct (P i); [now rewrite (H i I)|reflexivity..]. Qed.

Lemma upd_same T i x : upd T i x i = x.
Proof. unfold upd. now rewrite Nat.eqb_refl. Qed.

Lemma ko_upd T i x j : j <> i -> ko (upd T i x) j = ko T j.
Proof. intros N. unfold ko, upd. destruct (Nat.eqb_spec j i); [contradiction|reflexivity]. Qed.

Lemma W_put T i x post pre1 : order = pre1 ++ post -> In i pre1 -> isc i = true ->
  put (phi i) (snd (ko (upd T i x) i)) (W T pre1) = (Ok tt, W (upd T i x) pre1).
Proof.
  intros E I Q. unfold put. rewrite (W_at T pre1 post i E I). unfold mret. f_equal. apply in_split in I as (l1 & l2 & ->).
  rewrite <- app_assoc in E. cbn in E. rewrite (phi_at l1 i _ E). unfold W, grow. cbn [heap insts]. rewrite !map_length. f_equal. rewrite set_nth_app. f_equal.
  rewrite !map_app. cbn [map]. replace (length l1) with (length (map (fun p : cls * obj => (fst p, Some (snd p))) (map (ko T) l1))) by (now rewrite !map_length).
  rewrite set_nth_mid. pose proof order_nodup as N. rewrite E in N. apply NoDup_remove_2 in N.
  assert (Ext : forall l, ~ In i l -> map (ko (upd T i x)) l = map (ko T) l).
  { intros l Nl. apply map_ext_in. intros j J. apply ko_upd. intros ->. contradiction. }
  rewrite !Ext by (intros X; apply N; rewrite !in_app_iff; auto). f_equal. f_equal. unfold isc in Q. unfold ko. destruct (P i); [reflexivity|discriminate..].
Qed.

Notation CS := (filter isc (insts w)).

Lemma order_cs : order = CS ++ (filter ism (insts w) ++ filter isr (insts w)).
Proof. reflexivity. Qed.

Lemma add_one T i n o tr done : In i CS -> P i = PCoords n o -> T i = map (fun e => (phi (fst e), snd e)) done ->
  forall rest, Forall2 (fun p e => fst p = name_in w (fst e) /\ rules_value (snd p) (snd e)) tr rest -> o_trans o = done ++ rest ->
  add_transformations (phi i) (trans_texts tr) (W T CS) = (Ok tt, W (upd T i (full i)) CS).
Proof.
  intros Ii Pi. revert T done. induction tr as [|[s v] tr IH]; intros T done Td rest F Eo.
  - inversion F; subst. unfold add_transformations. cbn [trans_texts map mfor]. unfold mret. f_equal. apply W_ext. intros j _. unfold upd. destruct (Nat.eqb_spec j i) as [->|]; [|reflexivity].
    rewrite Td. unfold full. rewrite Pi. cbn [obj_p]. now rewrite Eo, app_nil_r.
  - inversion F as [|? [j r] ? rest' [E1 E2] F']; subst. cbn [fst snd] in *. subst s.
    assert (Iw : In i (insts w)) by (apply filter_In in Ii; apply Ii).
    destruct SB as (_ & _ & _ & H). destruct (H i Iw) as [_ H']. rewrite Pi in H'. destruct H' as [B Ft]. pose proof Ft as Ft0. rewrite Eo, Forall_app in Ft.
    destruct Ft as [_ Ft]. inversion Ft as [|? ? [Nj Cj] _]; subst. cbn [fst] in *.
    assert (Jw : In j (insts w)) by (apply (integ i o j Iw); [apply B|right; right; right; rewrite Eo, map_app, in_app_iff; right; left; reflexivity]).
    unfold add_transformations, trans_texts. cbn [map mfor fst snd].
    assert (Lv : registered_live (W T CS)) by (apply (W_live T CS _ order_cs)).
    assert (E : (let! j0 := first_named (VS (chars (name_in w j))) in
      match j0 with Some j0 => add_coord_transformation (phi i) (VObj j0) (Some (rules_arg v)) | None => mraise EKeyError end) (W T CS)
      = (Ok tt, W (upd T i (T i ++ [(phi j, r)])) CS)).
    { rewrite (bind_to _ _ _ _ _ (first_named_run _ _ Lv)). rewrite (W_named T CS _ j order_cs) by (apply in_coords; auto). cbn [hd_error].
      unfold add_coord_transformation. unfold mbind at 1, isinstance at 1. rewrite (W_cls T CS _ j order_cs) by (apply in_coords; auto).
      destruct (filter_In isc j (insts w)) as [Fj _]. destruct (Fj (in_coords j Jw Cj)) as [_ Qj]. unfold isc in Qj. unfold ko at 1. destruct (P j) eqn:Pj; try discriminate.
      cbn [fst cls_eqb negb]. destruct (Nat.eqb_spec (phi i) (phi j)) as [Eq|_]; [apply phi_inj in Eq; [congruence|exact Iw]|].
      unfold mbind at 1, getobj at 1. rewrite (W_obj T CS _ i order_cs Ii). unfold rules_value in E2. rewrite E2, rules_eq_ok, stored_rules_eq.
      transitivity (put (phi i) (snd (ko (upd T i (T i ++ [(phi j, r)])) i)) (W T CS)); [apply (f_equal (fun o => put (phi i) o (W T CS)))|].
      2:{ apply (W_put T i _ _ CS order_cs Ii). unfold isc. now rewrite Pi. }
      - unfold ko. rewrite Pi. cbn [snd]. rewrite upd_same. unfold coords_copy, set_trans. cbn [o_name o_symbol o_indices o_rank o_coords o_metric o_comps o_syms o_trans o_jacs].
        f_equal. rewrite Td.
        assert (Nd : ~ In (phi j) (map fst (map (fun e => (phi (fst e), snd e)) done))).
        { rewrite map_map. cbn [fst]. intros X. apply in_map_iff in X as (e & X1 & X2). apply phi_inj in X1.
          - destruct B as (_ & _ & _ & _ & _ & _ & _ & _ & _ & _ & [Nn _] & _). rewrite Eo, map_app in Nn. cbn [map fst] in Nn. apply NoDup_remove_2 in Nn.
            apply Nn. rewrite in_app_iff. left. rewrite <- X1. apply (in_map (fun e => name_in w (fst e))), X2.
          - apply (integ i o _ Iw); [apply B|right; right; right; rewrite Eo, map_app, in_app_iff; left; apply in_map, X2]. }
        generalize dependent (map (fun e : oid * list (string * K) => (phi (fst e), snd e)) done). clear. intros d _ Nd.
        induction d as [|[k v] d IH]; cbn in *; [reflexivity|]. destruct (Nat.eqb_spec (phi j) k); [exfalso; auto|]. rewrite IH by tauto. reflexivity. }
    rewrite (bind_to _ _ _ _ _ E).
    specialize (IH (upd T i (T i ++ [(phi j, r)])) (done ++ [(j, r)])). rewrite upd_same, Td, map_app in IH. cbn [map fst snd] in IH.
    specialize (IH eq_refl rest' F'). rewrite <- app_assoc in IH. specialize (IH Eo). unfold add_transformations, trans_texts in IH. rewrite Td. rewrite IH. f_equal.
    apply W_ext. intros x _. unfold upd. destruct (x =? i); reflexivity.
Qed.

Lemma visit_others (f : oid -> M unit) T i js : In i CS -> ~ In i js -> incl js CS ->
  mfor (fun i0 => let! n := has_name i0 (VS (chars (name_in w i))) in let! b := isinstance i0 CCoordinates in if n && b then f i0 else mret tt) (map phi js) (W T CS)
  = (Ok tt, W T CS).
Proof.
  intros Ii. induction js as [|j js IH]; intros N Hj; [reflexivity|]. cbn [map mfor].
  assert (Ij : In j CS) by (apply Hj; left; reflexivity).
  assert (Lj : obj_of (W T CS) (phi j) <> None) by (rewrite (W_obj T CS _ j order_cs Ij); discriminate).
  rewrite (bind_to _ _ _ tt (W T CS)).
  - apply IH; [intros X; apply N; right; exact X|intros x X; apply Hj; right; exact X].
  - rewrite (bind_to _ _ _ _ _ (has_name_run _ _ _ Lj)). rewrite (W_name T CS _ j order_cs Ij).
    destruct (String.eqb_spec (name_in w j) (name_in w i)) as [E|_].
    + exfalso. apply N. left. apply names_inj; [apply filter_In in Ij; apply Ij|apply filter_In in Ii; apply Ii|exact E].
    + unfold mbind, isinstance. reflexivity.
Qed.

Definition body3 (p : cls * kwargs) : M unit :=
  match fst p, k_trans (snd p) with
  | CCoordinates, _ :: _ =>
      fun w => mfor (fun i =>
        let! n := has_name i (k_name (snd p)) in
        let! b := isinstance i CCoordinates in
        if n && b then add_transformations i (k_trans (snd p)) else mret tt)
        (insts w) w
  | _, _ => mret tt
  end.

Lemma body3_coords T i x : In i CS -> T i = [] -> arg_of by_copy by_name i x -> body3 x (W T CS) = (Ok tt, W (upd T i (full i)) CS).
Proof.
  intros Ii Ti R. pose proof Ii as Qi. apply filter_In in Qi as [Iw Qi]. unfold isc in Qi. unfold arg_of in R. destruct (P i) as [n o| |] eqn:Pi; try discriminate.
  destruct R as (sx & tr & _ & Kt & Vt & ->). unfold body3. cbn [fst snd k_trans k_name].
  assert (F : Forall2 (fun p e => fst p = name_in w (fst e) /\ rules_value (snd p) (snd e)) tr (o_trans o)).
  { clear -Kt Vt. revert Kt. induction Vt as [|[s v] e tr l E Vt IH]; intros Kt; constructor; cbn in *; injection Kt; auto. }
  destruct (trans_texts tr) as [|t0 ts] eqn:Et.
  { destruct tr; [|discriminate]. assert (E0 : o_trans o = []) by (inversion F; reflexivity). unfold mret. f_equal. apply W_ext. intros j _. unfold upd. destruct (Nat.eqb_spec j i) as [->|]; [|reflexivity].
    rewrite Ti. unfold full. rewrite Pi. cbn [obj_p]. rewrite E0. reflexivity. }
  rewrite <- Et. clear Et. rewrite (W_insts T CS _ order_cs).
  replace (o_name o) with (name_in w i) by (rewrite (sb_name i Iw), Pi; reflexivity).
  destruct (in_split i CS Ii) as (l1 & l2 & Ecs). pose proof (NoDup_filter isc sb_nodup) as Nd. rewrite Ecs in Nd. apply NoDup_remove_2 in Nd.
  rewrite Ecs at 1. rewrite map_app. cbn [map].
  rewrite (mfor_app _ _ _ _ (W T CS)).
  2:{ apply visit_others; [exact Ii|intros X; apply Nd; rewrite in_app_iff; auto|rewrite Ecs; intros y Y; rewrite in_app_iff; auto]. }
  cbn [mfor]. assert (Li : obj_of (W T CS) (phi i) <> None) by (rewrite (W_obj T CS _ i order_cs Ii); discriminate).
  rewrite (bind_to _ _ _ tt (W (upd T i (full i)) CS)).
  - apply visit_others; [exact Ii|intros X; apply Nd; rewrite in_app_iff; auto|rewrite Ecs; intros y Y; rewrite in_app_iff; right; right; exact Y].
  - rewrite (bind_to _ _ _ _ _ (has_name_run _ _ _ Li)). rewrite (W_name T CS _ i order_cs Ii), String.eqb_refl.
    unfold mbind at 1, isinstance at 1. rewrite (W_cls T CS _ i order_cs Ii). unfold ko at 1. rewrite Pi. cbn [fst cls_eqb andb].
    apply (add_one T i n o tr []) with (rest := o_trans o); auto.
Qed.

Lemma body3_other i x w' : In i (insts w) -> isc i = false -> arg_of by_copy by_name i x -> body3 x w' = (Ok tt, w').
Proof.
  intros Ii Q R. unfold isc in Q. unfold arg_of in R. destruct SB as (_ & _ & _ & H). destruct (H i Ii) as [_ H']. unfold body3.
  destruct (P i) as [n o|n c o a gi|n c m k o a]; [discriminate| |].
  - destruct R as (v & sx & _ & _ & _ & ->). reflexivity.
  - destruct R as (v & sx & _ & _ & _ & ->). destruct H' as (_ & (Nk & _) & _). cbn [fst snd k_trans]. destruct k; reflexivity.
Qed.

Lemma phase3 l : Forall2 (arg_of by_copy by_name) (insts w) l -> mfor body3 l (W (fun _ => []) CS) = (Ok tt, W full CS).
Proof.
  intros F.
  assert (G : forall is l T, Forall2 (arg_of by_copy by_name) is l -> NoDup is -> incl is (insts w) -> (forall j, In j is -> T j = []) ->
     mfor body3 l (W T CS) = (Ok tt, W (fun j => if in_dec Nat.eq_dec j is then full j else T j) CS)).
  { clear l F. intros is l T F. revert T. induction F as [|i x is l R F IH]; intros T N Hi HT.
    - cbn [mfor]. unfold mret. f_equal.
    - inversion N as [|? ? N1 N2]; subst. cbn [mfor].
      assert (Ii : In i (insts w)) by (apply Hi; left; reflexivity).
      destruct (isc i) eqn:Q.
      + assert (Ic : In i CS) by (apply filter_In; auto).
        rewrite (bind_to _ _ _ _ _ (body3_coords T i x Ic (HT i (or_introl eq_refl)) R)). rewrite IH; auto.
        * f_equal. apply W_ext. intros j _. unfold upd. destruct (in_dec Nat.eq_dec j is) as [J|J], (in_dec Nat.eq_dec j (i :: is)) as [J'|J']; cbn in *; try tauto.
          -- destruct (Nat.eqb_spec j i) as [->|]; [reflexivity|]. destruct J' as [->|]; [contradiction|tauto].
          -- destruct (Nat.eqb_spec j i) as [->|]; [exfalso; auto|reflexivity].
        * intros y Y. apply Hi. right. exact Y.
        * intros j J. unfold upd. destruct (Nat.eqb_spec j i) as [->|]; [contradiction|]. apply HT. right. exact J.
      + rewrite (bind_to _ _ _ _ _ (body3_other i x _ Ii Q R)). rewrite IH; auto.
        * f_equal. apply W_ext. intros j J0. destruct (in_dec Nat.eq_dec j is) as [J|J], (in_dec Nat.eq_dec j (i :: is)) as [J'|J']; cbn in *; try tauto.
          destruct J' as [->|]; [|tauto]. apply filter_In in J0 as [_ J0]. congruence.
        * intros y Y. apply Hi. right. exact Y.
        * intros j J. apply HT. right. exact J. }
  rewrite (G (insts w) l _ F sb_nodup (incl_refl _) (fun _ _ => eq_refl)). f_equal. apply W_ext. intros j J. apply filter_In in J as [J _].
  destruct (in_dec Nat.eq_dec j (insts w)); [reflexivity|contradiction].
Qed.

(** Phase 4 *)
Lemma phase4 w' l : Forall2 (arg_of by_copy by_name) (insts w) l ->
  exists l', mmap need_coords l w' = (Ok l', w') /\ Forall2 (arg_of by_copy by_name) (insts w) l'.
Proof.
  intros F. apply (mmap_rel _ _ _ _ _ _ F). intros i x Ii R. exists x. split; [|exact R]. unfold arg_of in R. unfold need_coords.
  destruct (P i); destruct R as (? & ? & _ & _ & _ & ->); reflexivity.
Qed.

(** Phase 5 *)
Notation MS := (filter ism (insts w)).
Notation RS := (filter isr (insts w)).

Lemma split_at (pre : list oid) l1 l2 : order = pre ++ l1 ++ l2 -> order = (pre ++ l1) ++ l2.
Proof. intros ->. apply app_assoc. Qed.

Lemma sys_of T pre post i n c o : order = (CS ++ pre) ++ post -> In i (insts w) -> obj_of w i = Some o -> o_coords o = Some c ->
  coordinate_system w c n -> coordinate_system (W T (CS ++ pre)) (phi c) n.
Proof.
  intros E Ii Ho Oc Cs. assert (Ic : In c (insts w)) by (apply (integ i o c Ii Ho); right; right; left; exact Oc).
  destruct (coords_dim c n Ic Cs) as (o' & Pc & Hl). apply (W_coords T (CS ++ pre) post c n o'); auto.
  rewrite in_app_iff. left. apply in_coords; [exact Ic|apply Cs].
Qed.

Lemma phase5 l : Forall2 (arg_of by_copy by_name) (insts w) l ->
  mfor (fun p => if cls_eqb (fst p) CMetric then construct (fst p) (snd p) ;; mret tt else mret tt) l (W full CS)
  = (Ok tt, W full (CS ++ MS)).
Proof.
  intros F. apply (phase ism _ (arg_of by_copy by_name) (W full) CS (insts w) l F).
  - intros i x pre post R E. assert (Q : In i MS) by (rewrite E; apply in_elt). apply filter_In in Q as [Ii Q].
    unfold ism in Q. unfold arg_of in R. destruct (P i) as [|n c o a gi|] eqn:Pi; try discriminate. destruct R as (v & sx & V1 & V2 & Ts & ->). cbn [fst snd cls_eqb].
    destruct SB as (_ & _ & _ & H). destruct (H i Ii) as [_ H']. rewrite Pi in H'. destruct H' as (B & Cs & Hi & Ac).
    pose proof B as (_ & _ & Ho & _ & Hc & Hn & Oc & _ & _ & _ & _ & _ & Vi & Li & De & _).
    assert (Cu : cubic n a) by (eapply default_cubic; eassumption).
    assert (Ra : rank a = 2) by (destruct Hi as [Ei|Ei]; rewrite Ei in Li; cbn in Li; lia).
    destruct (accepts_run n a gi Cu Ra Ac) as [Sy Iv].
    assert (Eo : order = (CS ++ pre) ++ i :: post ++ RS) by (unfold order; rewrite E, <- !app_assoc; reflexivity).
    assert (S2 : coordinate_system (W full (CS ++ pre)) (phi c) n) by (apply (sys_of full pre _ i n c o Eo); auto).
    rewrite (bind_to _ _ _ _ _ (construct_metric (W full (CS ++ pre)) o v sx n a gi (phi c) Ts V1 V2 Cu Hi Ra (proj1 Ac) Sy Iv S2 None)).
    unfold mret. f_equal. rewrite (app_assoc CS pre [i]). unfold W at 3. rewrite (map_app _ (CS ++ pre)). cbn [map]. rewrite grow_snoc. fold (W full (CS ++ pre)).
    unfold ko. rewrite Pi. cbn [fst snd]. rewrite W_heap. rewrite (phi_at _ _ _ Eo). reflexivity.
  - intros i x w' Ii R Q. unfold ism in Q. unfold arg_of in R. destruct SB as (_ & _ & _ & H). destruct (H i Ii) as [_ H'].
    destruct (P i) as [n o|n c o a gi|n c m k o a]; [|discriminate|].
    + destruct R as (sx & tr & _ & _ & _ & ->). reflexivity.
    + destruct R as (v & sx & _ & _ & _ & ->). destruct H' as (Nk & _). cbn [fst]. destruct k; try reflexivity. contradiction.
Qed.

(** Phase 6 *)
Lemma phase6 l : Forall2 (arg_of by_copy by_name) (insts w) l ->
  exists l', mmap need_metric l (W full (CS ++ MS)) = (Ok l', W full (CS ++ MS)) /\ Forall2 (arg_of by_copy by_copy) (insts w) l'.
Proof.
  intros F. apply (mmap_rel _ _ _ _ _ _ F). intros i x Ii R.
  assert (Eo : order = (CS ++ MS) ++ RS) by (unfold order; apply app_assoc).
  destruct SB as (_ & _ & _ & H). destruct (H i Ii) as [_ H']. unfold arg_of in *. destruct (P i) as [n o|n c o a gi|n c m k o a] eqn:Pi.
  - exists x. split; [|exact R]. destruct R as (sx & tr & _ & _ & _ & ->). reflexivity.
  - exists x. split; [|exact R]. destruct R as (v & sx & _ & _ & _ & ->). reflexivity.
  - destruct R as (v & sx & V1 & V2 & Ts & ->). eexists. split; [|exists v, sx; split; [exact V1|split; [exact V2|split; [exact Ts|reflexivity]]]].
    destruct H' as (_ & B & _ & Cm). unfold need_metric. cbn [fst snd k_metric by_name].
    assert (Im : In m (insts w)) by (apply (integ i o m Ii); [apply B|right; left; apply B]).
    rewrite (bind_to _ _ _ _ _ (first_named_run _ _ (W_live full _ _ Eo))). rewrite (W_named full _ _ m Eo); [reflexivity|].
    rewrite in_app_iff. right. apply in_metrics; auto.
Qed.

(** Phase 7 *)
Lemma phase7 l : Forall2 (arg_of by_copy by_copy) (insts w) l ->
  mfor (fun p => match fst p with
                 | CCoordinates | CMetric => mret tt
                 | _ => construct (fst p) (snd p) ;; mret tt
                 end) l (W full (CS ++ MS)) = (Ok tt, W full order).
Proof.
  intros F. unfold order. rewrite (app_assoc CS MS RS). apply (phase isr _ (arg_of by_copy by_copy) (W full) (CS ++ MS) (insts w) l F).
  - intros i x pre post R E. assert (Q : In i RS) by (rewrite E; apply in_elt). apply filter_In in Q as [Ii Q].
    unfold isr in Q. unfold arg_of in R. destruct (P i) as [| |n c m k o a] eqn:Pi; try discriminate. destruct R as (v & sx & V1 & V2 & Ts & ->). cbn [fst snd].
    destruct SB as (_ & _ & _ & H). destruct (H i Ii) as [_ H']. rewrite Pi in H'. destruct H' as (Nk & B & Cs & Cm).
    pose proof B as (Nc & _ & Ho & _ & Hc & Hn & Oc & _ & _ & Om & _ & _ & Vi & Li & De & _).
    assert (Cu : cubic n a) by (eapply default_cubic; eassumption).
    assert (Eo : order = (CS ++ (MS ++ pre)) ++ i :: post) by (unfold order; rewrite E, <- !app_assoc; reflexivity).
    assert (S2 : coordinate_system (W full (CS ++ (MS ++ pre))) (phi c) n) by (apply (sys_of full (MS ++ pre) _ i n c o Eo); auto).
    assert (Im : In m (insts w)) by (apply (integ i o m Ii Ho); right; left; exact Om).
    assert (M2 : cls_of (W full (CS ++ (MS ++ pre))) (phi m) = Some CMetric).
    { pose proof (in_metrics m Im Cm) as J. rewrite (W_cls full _ _ m Eo) by (rewrite !in_app_iff; auto). apply filter_In in J as [_ J]. unfold ism in J. unfold ko. destruct (P m); try discriminate. reflexivity. }
    rewrite <- app_assoc.
    assert (Cn : construct k (mkKw (VS (chars (o_name o))) (o_indices o) v (Some (VE sx)) (Some (by_copy c)) (Some (by_copy m)) []) (W full (CS ++ MS ++ pre))
      = (Ok (length (heap (W full (CS ++ MS ++ pre)))), W full ((CS ++ MS ++ pre) ++ [i]))).
    { unfold by_copy. rewrite (construct_tensor _ k o v sx n a (phi c) (phi m)); auto. f_equal. unfold W at 2. rewrite (map_app _ (CS ++ MS ++ pre)). cbn [map]. rewrite grow_snoc. fold (W full (CS ++ MS ++ pre)).
      unfold ko. rewrite Pi. reflexivity. }
    assert (E2 : forall k', k' = k -> k' <> CCoordinates -> k' <> CMetric -> match k' with CCoordinates | CMetric => mret tt
        | _ => construct k (mkKw (VS (chars (o_name o))) (o_indices o) v (Some (VE sx)) (Some (by_copy c)) (Some (by_copy m)) []) ;; mret tt end (W full (CS ++ MS ++ pre))
       = (Ok tt, W full ((CS ++ MS ++ pre) ++ [i]))).
    { intros k' _ N1 N2. destruct k'; try contradiction; rewrite (bind_to _ _ _ _ _ Cn); reflexivity. }
    rewrite (E2 k eq_refl Nc Nk). f_equal. f_equal. rewrite <- !app_assoc. reflexivity.
  - intros i x w' Ii R Q. unfold isr in Q. unfold arg_of in R.
    destruct (P i) as [n o|n c o a gi|n c m k o a]; [| |discriminate]; destruct R as (? & ? & _ & _ & _ & ->); reflexivity.
Qed.

(** All together *)
Lemma final_copied i : In i (insts w) -> copied (W full order) phi i (P i).
Proof.
  intros Ii. assert (Io : In i order) by (apply order_in, Ii). assert (Eo : order = order ++ []) by (now rewrite app_nil_r).
  pose proof (W_cls full _ _ i Eo Io) as Hc. pose proof (W_obj full _ _ i Eo Io) as Ho. unfold ko in Hc, Ho. unfold copied.
  destruct (P i) eqn:Pi; cbn [fst snd] in *; split; auto. rewrite Ho. unfold full. rewrite Pi. reflexivity.
Qed.

Lemma order_is : order = import_order w.
Proof.
  unfold order, import_order. destruct SB as (_ & _ & _ & H).
  assert (E : forall f g, (forall i, In i (insts w) -> f i = g i) -> filter f (insts w) = filter g (insts w)).
  { intros f g X. apply filter_ext_in. exact X. }
  assert (Q : forall i, In i (insts w) -> exists k, cls_of w i = Some k /\ (isc i, ism i, isr i)
    = (match k with CCoordinates => true | _ => false end, match k with CMetric => true | _ => false end, match k with CCoordinates | CMetric => false | _ => true end)).
  { intros i Ii. destruct (H i Ii) as [_ H']. unfold isc, ism, isr. destruct (P i) as [n o|n c o a gi|n c m k o a].
    - destruct H' as [(H1 & _) _]. exists CCoordinates. auto.
    - destruct H' as [(_ & H1 & _) _]. exists CMetric. auto.
    - destruct H' as (N1 & (N2 & H1 & _) & _). exists k. split; [exact H1|]. destruct k; (reflexivity || contradiction). }
  f_equal; [|f_equal]; apply E; intros i Ii; destruct (Q i Ii) as (k & -> & Ek); injection Ek as E1 E2 E3; assumption.
Qed.

End Session.
End Export5.
