(** Proofs about export and import: the text of a whole session. *)
From Verif Require Import Base LexM ParseM InterpM SpecParse Value_P Witness_Parse_P WorldM SpecWorld World_P
  Registry_P Run_P Arr Arr_P ExportM SpecExport Export_P Export2_P Export3_P Export4_P Export5_P.
From Coq Require Import Ascii.
Import List.

Section Export6.
Context {A : AlgOps} {O : PyOps} {C : CodeOps}.

Lemma none_named w s : insts w = [] -> objects_named w s = [].
Proof. intros E. unfold objects_named. now rewrite E. Qed.

Lemma none_found w tr : insts w = [] -> found_trans w tr = trans_texts tr.
Proof.
  intros E. unfold found_trans, trans_texts. induction tr as [|p tr IH]; [reflexivity|]. cbn [flat_map]. rewrite none_named by exact E.
  rewrite IH. reflexivity.
Qed.

Definition entry_of (w : world) (P : oid -> portrait) (i : oid) (p : (text * text) * (string * val)) : Prop :=
  fst (snd p) = name_in w i /\ plain (name_in w i) /\ fst (fst p) = in_quotes (name_in w i) /\
  (exists d, tensor_to_dict i w = (Ok d, w) /\ snd (fst p) = association d) /\
  (forall b, reads_as b (snd (fst p)) (snd (snd p))) /\
  forall w2, registered_live w2 -> insts w2 = [] -> exists x,
    read_tensor (VS (chars (name_in w i))) (snd (snd p)) w2 = (Ok x, w2) /\ arg_of w P (by_name w) (by_name w) i x.

Lemma entry_found (L : CodeLaws) w P i : session_back w P -> In i (insts w) -> exists p, entry_of w P i p.
Proof.
  intros SB I. pose proof (sb_name w P SB i I) as Nm. pose proof (sb_plain w P SB i I) as Pl. rewrite <- Nm in Pl.
  destruct SB as (_ & _ & _ & H). destruct (H i I) as [_ H']. unfold entry_of, arg_of. destruct (P i) as [n o|n c o a gi|n c m k o a]; cbn [obj_p] in Nm.
  - destruct H' as [B _]. destruct (coords_read L w n i o [] [] B (or_introl (conj eq_refl eq_refl))) as (tv & sx & tr & R & Ts & Kt & Vt & Rd).
    rewrite app_nil_r in R. eexists ((_, _), (_, tv)). cbn [fst snd]. split; [reflexivity|]. split; [exact Pl|]. split; [reflexivity|].
    split; [eexists; split; [apply (dict_coords L w n i o B)|reflexivity]|]. split; [exact R|].
    intros w2 Lv E. eexists. split; [apply Rd; exact Lv|]. exists sx, tr. rewrite (none_found w2 tr E), Nm. auto.
  - destruct H' as [B _]. destruct (tensor_read L w n i c i CMetric o a [] [] B (or_introl (conj eq_refl eq_refl))) as (tv & v & sx & R & V1 & V2 & Ts & Rd).
    rewrite app_nil_r in R. eexists ((_, _), (_, tv)). cbn [fst snd]. split; [reflexivity|]. split; [exact Pl|]. split; [reflexivity|].
    split; [eexists; split; [apply (dict_tensor w n i c i CMetric o a B)|reflexivity]|]. split; [exact R|].
    intros w2 Lv E. eexists. split; [apply Rd; exact Lv|]. exists v, sx. rewrite Nm. auto.
  - destruct H' as (Nk & B & _). destruct (tensor_read L w n i c m k o a [] [] B (or_introl (conj eq_refl eq_refl))) as (tv & v & sx & R & V1 & V2 & Ts & Rd).
    rewrite app_nil_r in R. eexists ((_, _), (_, tv)). cbn [fst snd]. split; [reflexivity|]. split; [exact Pl|]. split; [reflexivity|].
    split; [eexists; split; [apply (dict_tensor w n i c m k o a B)|reflexivity]|]. split; [exact R|].
    intros w2 Lv E. eexists. split; [apply Rd; exact Lv|]. exists v, sx. rewrite Nm. split; [exact V1|]. split; [exact V2|]. split; [exact Ts|].
    f_equal. f_equal. unfold metric_found, by_name. rewrite none_named by exact E. destruct B as (Nc & _). destruct k; try contradiction; reflexivity.
Qed.

Lemma entries_found (L : CodeLaws) w P : session_back w P -> exists ps, Forall2 (entry_of w P) (insts w) ps.
Proof.
  intros SB. assert (G : forall is, incl is (insts w) -> exists ps, Forall2 (entry_of w P) is ps).
  { induction is as [|i is IH]; intros Hi; [exists []; constructor|]. destruct (entry_found L w P i SB (Hi i (or_introl eq_refl))) as (p & E).
    destruct IH as (ps & F); [intros j J; apply Hi; right; exact J|]. exists (p :: ps). constructor; auto. }
  apply G, incl_refl.
Qed.

Definition options_text : text := chars "<|" ++ in_quotes "OGReVersion" ++ chars "->" ++ in_quotes version_text ++ chars "|>".
Definition options_val : val := VD [(VS (chars "OGReVersion"), VS (chars version_text))].

Lemma options_reads (L : CodeLaws) b : reads_as b options_text options_val.
Proof.
  pose proof (ra_assoc b [(in_quotes "OGReVersion", in_quotes version_text)] [(VS (chars "OGReVersion"), VS (chars version_text))]) as H.
  cbn [map fst snd sep_by flat_map] in H. rewrite app_nil_r, <- !app_assoc in H. unfold options_text, options_val.
  change (VD [(VS (chars "OGReVersion"), VS (chars version_text))]) with (VD (map (fun p : string * val => (VS (chars (fst p)), snd p)) [("OGReVersion"%string, VS (chars version_text))])).
  rewrite <- (assoc_texts L) by (repeat constructor; intros []). apply H. constructor; [|constructor]. split; [|apply ra_text, version_plain].
  apply ra_text. unfold plain. vm_compute. intuition discriminate.
Qed.

Definition all_entries (ps : list ((text * text) * (string * val))) : list (text * text) := (in_quotes "Options", options_text) :: map fst ps.
Definition all_vals (ps : list ((text * text) * (string * val))) : list (string * val) := ("Options"%string, options_val) :: map snd ps.
Definition all_text (ps : list ((text * text) * (string * val))) : text :=
  chars "<|" ++ sep_by (chars ",") (map (fun p => fst p ++ chars "->" ++ snd p) (all_entries ps)) ++ chars "|>".

Lemma all_exported w P ps : session_back w P -> Forall2 (entry_of w P) (insts w) ps -> export_all_to_string w = (Ok (all_text ps), w).
Proof.
  intros SB F. unfold export_all_to_string.
  assert (E : mmap (fun t => let! n := name_at t in let! d := tensor_to_dict t in mret (in_quotes n ++ chars "->" ++ association d)) (insts w) w
     = (Ok (map (fun p => fst (fst p) ++ chars "->" ++ snd (fst p)) ps), w)).
  { assert (G : forall is, incl is (insts w) -> Forall2 (entry_of w P) is ps ->
      mmap (fun t => let! n := name_at t in let! d := tensor_to_dict t in mret (in_quotes n ++ chars "->" ++ association d)) is w
       = (Ok (map (fun p => fst (fst p) ++ chars "->" ++ snd (fst p)) ps), w)).
    { clear F. intros is Hi F. revert Hi. induction F as [|i p is ps (E1 & Pl & E2 & (d & D & E3) & _) F IH]; intros Hi; [reflexivity|]. cbn [mmap map].
      assert (Li : obj_of w i <> None) by (rewrite (sb_obj w P SB i (Hi i (or_introl eq_refl))); discriminate).
      rewrite (bind_to _ _ w (in_quotes (name_in w i) ++ chars "->" ++ association d) w).
      - rewrite (bind_to _ _ _ _ _ (IH (fun j J => Hi j (or_intror J)))). rewrite E2, E3. reflexivity.
      - rewrite (bind_to _ _ _ _ _ (name_at_ok w i Li)), (bind_to _ _ _ _ _ D). reflexivity. }
    apply (G _ (incl_refl _) F). }
  rewrite (bind_to _ _ _ _ _ E). unfold mret. f_equal. f_equal. rewrite join_sep. unfold all_text, all_entries.
  assert (Ne : ps <> []).
  { intros ->. inversion F as [X|]; subst. destruct SB as (_ & N & _). congruence. }
  destruct ps as [|p ps]; [contradiction|]. cbn [map sep_by flat_map fst snd]. unfold options_text. rewrite map_map. rewrite <- !app_assoc. reflexivity.
Qed.

Lemma all_read (L : CodeLaws) w P ps : session_back w P -> Forall2 (entry_of w P) (insts w) ps ->
  reads_as true (all_text ps) (VD (map (fun p => (VS (chars (fst p)), snd p)) (all_vals ps))).
Proof.
  intros SB F. rewrite <- (assoc_texts L).
  - apply ra_assoc. unfold all_entries, all_vals. cbn [map fst snd]. constructor.
    + split; [apply ra_text; unfold plain; vm_compute; intuition discriminate|apply options_reads, L].
    + clear SB. induction F as [|i p is ps (E1 & Pl & E2 & _ & R & _) F IH]; cbn [map]; constructor; [|exact IH].
      cbn [fst snd]. rewrite E1, E2. split; [apply ra_text, Pl|apply R].
  - assert (E : map fst (map snd ps) = map (name_in w) (insts w)).
    { clear SB. induction F as [|i p is ps (E1 & _) F IH]; [reflexivity|]. cbn [map]. now rewrite IH, E1. }
    destruct SB as (_ & _ & N & H). unfold all_vals. cbn [map fst]. constructor; rewrite E; [|exact N].
    intros I. apply in_map_iff in I as (i & Ei & Ii). destruct (H i Ii) as [X _]. contradiction.
Qed.

Lemma all_args w P ps w2 : session_back w P -> Forall2 (entry_of w P) (insts w) ps -> registered_live w2 -> insts w2 = [] ->
  exists l, read_tensors (map (fun p => (VS (chars (fst p)), snd p)) (all_vals ps)) w2 = (Ok l, w2) /\
    Forall2 (arg_of w P (by_name w) (by_name w)) (insts w) l.
Proof.
  intros SB F Lv E. unfold all_vals. cbn [map read_tensors fst snd]. change (key_same (VS (chars "Options")) (VS (chars "Options"))) with (text_eqb (chars "Options") (chars "Options")).
  rewrite text_eqb_chars. cbn [String.eqb Ascii.eqb Bool.eqb].
  assert (G : forall is, incl is (insts w) -> Forall2 (entry_of w P) is ps ->
    exists l, read_tensors (map (fun p => (VS (chars (fst p)), snd p)) (map snd ps)) w2 = (Ok l, w2) /\ Forall2 (arg_of w P (by_name w) (by_name w)) is l).
  { clear F. intros is Hi F. revert Hi. induction F as [|i p is ps (E1 & _ & _ & _ & _ & R) F IH]; intros Hi; [exists []; split; [reflexivity|constructor]|].
    destruct (IH (fun j J => Hi j (or_intror J))) as (l & El & Fl). destruct (R w2 Lv E) as (x & Rx & Ax).
    exists (x :: l). split; [|constructor; auto]. cbn [map read_tensors fst snd]. change (key_same (VS ?a) (VS ?b)) with (text_eqb a b). 
    cbn [key_same]. rewrite text_eqb_chars. destruct SB as (_ & _ & _ & H). destruct (H i (Hi i (or_introl eq_refl))) as [No _]. rewrite E1.
    destruct (String.eqb_spec (name_in w i) "Options") as [X|_]; [contradiction|].
    rewrite (bind_to _ _ _ _ _ Rx), (bind_to _ _ _ _ _ El). reflexivity. }
  apply (G _ (incl_refl _) F).
Qed.

Theorem session_round_trip (L : CodeLaws) w P : session_back w P ->
  exists s, export_all_to_string w = (Ok s, w) /\
  forall w2, registry_ok w2 -> exists f w3,
    ends (fun n => import_all_from_string n s) w2 (Ok (insts w3), w3) /\
    insts w3 = map f (import_order w) /\ NoDup (insts w3) /\
    forall i, In i (insts w) -> copied w3 f i (P i).
Proof.
  intros SB. destruct (entries_found L w P SB) as (ps & F). exists (all_text ps). split; [apply (all_exported w P ps SB F)|].
  intros w2 R2. destruct (clear_instances_spec w2 R2) as (w0 & Cl & I0).
  assert (Lv : registered_live w0) by (intros i I; rewrite I0 in I; destruct I).
  destruct (all_args w P ps w0 SB F Lv I0) as (l0 & El0 & F0).
  exists (phi w P w0), (W w P w0 (full w P w0) (order w P)).
  split.
  - destruct (ra_read L _ _ (all_read L w P ps SB F)) as (n & Hn). exists n. intros m Hm.
    unfold import_all_from_string. rewrite (bind_to _ _ _ _ _ Cl).
    assert (Es : string_to_tensor m (all_text ps) w0 = (Ok l0, w0)).
    { unfold string_to_tensor. rewrite (bind_to _ _ w0 _ w0) by (unfold mlift; rewrite (Hn m Hm); reflexivity).
      rewrite (bind_to _ _ w0 _ w0) by reflexivity. exact El0. }
    rewrite (bind_to _ _ _ _ _ Es). rewrite (bind_to _ _ _ _ _ (phase1 w P SB w0 l0 F0)).
    destruct (phase2 w P SB w0 I0 (fun _ => []) l0 F0) as (l1 & E1 & F1). rewrite (bind_to _ _ _ _ _ E1).
    pose proof (phase3 w P SB w0 I0 l1 F1) as E3. unfold body3 in E3. rewrite (bind_to _ _ _ _ _ E3). clear E3.
    destruct (phase4 w P w0 (W w P w0 (full w P w0) (filter (isc P) (insts w))) l1 F1) as (l2 & E2 & F2). rewrite (bind_to _ _ _ _ _ E2).
    rewrite (bind_to _ _ _ _ _ (phase5 w P SB w0 l2 F2)).
    destruct (phase6 w P SB w0 I0 l2 F2) as (l3 & E3 & F3). rewrite (bind_to _ _ _ _ _ E3).
    rewrite (bind_to _ _ _ _ _ (phase7 w P SB w0 l3 F3)). reflexivity.
  - assert (Eo : order w P = order w P ++ []) by (now rewrite app_nil_r).
    rewrite (W_insts w P SB w0 I0 _ _ _ Eo). rewrite (order_is w P SB). split; [reflexivity|]. rewrite <- (order_is w P SB). split.
    + rewrite (map_phi_aux w P SB w0 _ _ Eo). apply seq_NoDup.
    + intros i Ii. apply final_copied; auto.
Qed.

End Export6.
