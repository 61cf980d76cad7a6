(** The report of delete_results. *)
From Verif Require Import Base LexM Arr WorldM SpecWorld World_P Registry_P Calc_P MessageM SpecMessage Message_P ReportM SpecReport.
Import List.
Local Open Scope nat_scope.

Section Report.
Context {A : AlgOps}.

Lemma del_length {X} (p : nat) (l : list X) : p < length l -> length l = S (length (del_nth p l)).
Proof. revert p. induction l as [|x l IH]; intros [|p] H; cbn in *; try lia. rewrite <- IH; lia. Qed.
Lemma index_bound t l p : index_of Nat.eqb t l = Some p -> p < length l.
Proof.
  revert p. induction l as [|x l IH]; intros p; cbn; [discriminate|]. destruct (x =? t) eqn:E.
  all: try (destruct (t =? x)); try (intros H; injection H as <-; cbn; lia).
  all: destruct (index_of Nat.eqb t l) as [q|]; cbn; intros H; try discriminate; injection H as <-; specialize (IH q eq_refl); lia.
Qed.

(** A counting body does what the body does, and counts the objects that it takes away. *)
Definition counts (body : oid -> M unit) (cbody : oid -> M nat) : Prop := forall i w,
  match cbody i w with
  | (Ok k, w') => body i w = (Ok tt, w') /\ length (insts w) = k + length (insts w')
  | (Err e, w') => body i w = (Err e, w')
  end.

Lemma delete_counts t silent w w' : delete t silent w = (Ok tt, w') -> length (insts w) = 1 + length (insts w').
Proof.
  unfold delete. cbv zeta. match goal with |- context [find ?f ?l] => destruct (find f l) as [i|] end.
  - destruct (obj_of w i), (obj_of w t); discriminate.
  - destruct (obj_of w t); [|destruct silent; [|discriminate]]; (destruct (index_of Nat.eqb t (insts w)) as [p|] eqn:E; [|discriminate]);
      intros H; assert (W : w' = mkW (heap w') (del_nth p (insts w))) by (injection H as <-; reflexivity); rewrite W; cbn [insts];
      rewrite (del_length p (insts w)) by (apply (index_bound t), E); reflexivity.
Qed.
Lemma delete_kept t silent w e w' : delete t silent w = (Err e, w') -> insts w' = insts w.
Proof.
  unfold delete. cbv zeta. match goal with |- context [find ?f ?l] => destruct (find f l) as [i|] end.
  - destruct (obj_of w i), (obj_of w t); intros H; injection H as _ <-; reflexivity.
  - destruct (obj_of w t); [|destruct silent]; try (destruct (index_of Nat.eqb t (insts w)) as [p|]);
      intros H; try discriminate; injection H as _ <-; reflexivity.
Qed.

Lemma try_counts silent : counts (fun i => try_delete i silent) (fun i => try_count i silent).
Proof.
  intros i w. unfold try_count, try_delete. destruct (delete i silent w) as [[[]|e] w'] eqn:E.
  - split; [reflexivity|apply (delete_counts i silent), E].
  - apply delete_kept in E. destruct e; try reflexivity. split; [reflexivity|]. rewrite E. reflexivity.
Qed.
Lemma if_counts body cbody : counts body cbody -> counts (if_named "Result" body) (if_result cbody).
Proof.
  intros H i w. unfold if_named, if_result, mbind, getobj. destruct (obj_of w i) as [o|]; [|reflexivity].
  destruct (String.eqb (o_name o) "Result"); [apply H|]. split; reflexivity.
Qed.

Lemma instances_count body cbody : counts body cbody -> forall f pos d w,
  match count_instances f pos d cbody w with
  | (Ok k, w') => for_instances f pos body w = (Ok tt, w') /\ d + length (insts w) = k + length (insts w')
  | (Err e, w') => for_instances f pos body w = (Err e, w')
  end.
Proof.
  intros H. induction f as [|f IH]; intros pos d w; cbn [count_instances for_instances]; destruct (nth_error (insts w) pos) as [i|]; try (split; reflexivity); try reflexivity.
  unfold mbind. assert (Hi := H i w). destruct (cbody i w) as [[k|e] w1]; [|rewrite Hi; reflexivity]. destruct Hi as [E N]. rewrite E.
  assert (J := IH (S pos) (d + k) w1). destruct (count_instances f (S pos) (d + k) cbody w1) as [[k2|e] w2]; [|exact J].
  destruct J as [E2 N2]. split; [exact E2|lia].
Qed.
Lemma times_count body cbody : counts body cbody -> forall n d w,
  match count_times n d cbody w with
  | (Ok k, w') => times n (pass body) w = (Ok tt, w') /\ d + length (insts w) = k + length (insts w')
  | (Err e, w') => times n (pass body) w = (Err e, w')
  end.
Proof.
  intros H. induction n as [|n IH]; intros d w; cbn [count_times times]; [split; reflexivity|]. unfold mbind.
  assert (Hi := instances_count body cbody H (length (insts w)) 0 d w). change (for_instances (length (insts w)) 0 body w) with (pass body w) in Hi.
  destruct (count_instances (length (insts w)) 0 d cbody w) as [[k|e] w1]; [|rewrite Hi; reflexivity]. destruct Hi as [E N]. rewrite E.
  assert (J := IH k w1). destruct (count_times n k cbody w1) as [[k2|e] w2]; [|exact J]. destruct J as [E2 N2]. split; [exact E2|lia].
Qed.

Lemma report_number w silent : registry_ok w ->
  exists k w', report_results silent w = (Ok (if silent then None else Some (reported k)), w') /\ delete_results silent w = (Ok tt, w') /\
    length (insts w) = k + length (insts w').
Proof.
  intros R. destruct (delete_results_only w silent R) as (w' & E & _).
  assert (J := times_count _ _ (if_counts _ _ (try_counts silent)) 4 0 w). unfold report_results, mbind.
  destruct (count_times 4 0 (if_result (fun i => try_count i silent)) w) as [[k|e] w1].
  - destruct J as [E1 N]. exists k, w1. split; [reflexivity|]. split; [exact E1|exact N].
  - unfold delete_results in E. rewrite E in J. discriminate.
Qed.

Lemma report_block w pre block post : registry_ok w -> insts w = pre ++ block ++ post ->
  Forall (named w "Result") block -> Forall (fun i => ~ named w "Result" i) pre -> Forall (fun i => ~ named w "Result" i) post ->
  Forall (fun i => ~ used w i) block ->
  exists w', report_results false w = (Ok (Some (reported (length block - length block / 16))), w').
Proof.
  intros R Hi H1 H2 H3 H4. destruct (delete_results_law w false pre block post R Hi H1 H2 H3 H4) as (w1 & l & E1 & I1 & _ & Hl & _).
  destruct (report_number w false R) as (k & w' & E & E' & N). assert (w1 = w') by congruence. subst w1. exists w'.
  replace (length block - length block / 16) with k; [exact E|]. rewrite I1, Hi, !app_length in N. rewrite Hl in N. lia.
Qed.

(** Different numbers give different texts. *)
Lemma reported_inj k k' : reported k = reported k' -> k = k'.
Proof.
  unfold reported. intros H. apply app_inv_head, app_inv_tail in H. apply decimal_inj, H.
Qed.
End Report.
