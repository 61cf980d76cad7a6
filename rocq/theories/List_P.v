(** Proofs about list(). *)
From Verif Require Import Base Alg Alg_P Arr Arr_P Spec ListM.
Local Open Scope nat_scope.

Section ListP.
Context {A : AlgOps} {L : AlgLaws A}.
Add Ring Kring : kring (setoid keq_equiv kring_ext).

(** The positions of all labels of all groups. *)
Definition labels (g : groups) : list (list nat) := flat_map (fun ke => map snd (snd ke)) g.
Definition sound (a : arr) (g : groups) : Prop :=
  forall key es s pos, In (key, es) g -> In (s, pos) es ->
    keq (aget a pos) (if s then key else kopp key) /\ kisz (aget a pos) = false.
Lemma sub_zero x y : kisz (ksub x y) = true -> keq y x.
Proof. intros H. apply kisz_ok in H. transitivity (kadd y (ksub x y)); [rewrite H; ring|ring]. Qed.
Lemma add_zero x y : kisz (kadd x y) = true -> keq y (kopp x).
Proof. intros H. apply kisz_ok in H. transitivity (ksub (kadd x y) x); [ring|rewrite H; ring]. Qed.

Lemma match_key_in key c pos s p : In (s, p) (match_key key c pos) -> p = pos /\ keq c (if s then key else kopp key).
Proof.
  unfold match_key. intros H. apply in_app_or in H as [H|H].
  - destruct (kisz (ksub key c)) eqn:E; [|destruct H]. destruct H as [H|[]]. injection H as <- <-. split; [reflexivity|apply sub_zero, E].
  - destruct (kisz (kadd key c)) eqn:E; [|destruct H]. destruct H as [H|[]]. injection H as <- <-. split; [reflexivity|apply add_zero, E].
Qed.

Lemma step_sound a g pos : sound a g -> sound a (list_step a g pos).
Proof.
  intros H. unfold list_step. destruct (kisz (aget a pos)) eqn:Z; [exact H|].
  assert (S1 : sound a (map (fun ke => (fst ke, snd ke ++ match_key (fst ke) (aget a pos) pos)) g)).
  { intros key es s p Hk He. apply in_map_iff in Hk as ([k0' e0] & E & Hin). injection E as <- <-. cbn [fst snd] in *.
    apply in_app_or in He as [He|He]; [eapply H; eauto|]. apply match_key_in in He as [-> He]. auto. }
  destruct (forallb _ g); [|exact S1].
  intros key es s p Hk He. apply in_app_or in Hk as [Hk|[Hk|[]]]; [eapply S1; eauto|].
  injection Hk as <- <-. destruct He as [He|[]]. injection He as <- <-. split; [reflexivity|exact Z].
Qed.
Lemma fold_sound a l g : sound a g -> sound a (fold_left (list_step a) l g).
Proof. revert g. induction l as [|p l IH]; intros g H; [exact H|]. cbn [fold_left]. apply IH, step_sound, H. Qed.

Definition nz (a : arr) (p : list nat) : bool := negb (kisz (aget a p)).
Lemma labels_incl a g pos p : In p (labels (list_step a g pos)) <-> In p (labels g) \/ (p = pos /\ kisz (aget a pos) = false).
Proof.
  unfold list_step. destruct (kisz (aget a pos)) eqn:Z. { split; [auto|]. intros [H|[_ H]]; [exact H|discriminate]. }
  assert (E : In p (labels (map (fun ke => (fst ke, snd ke ++ match_key (fst ke) (aget a pos) pos)) g)) <->
     In p (labels g) \/ (p = pos /\ forallb (fun ke => length (match_key (fst ke) (aget a pos) pos) =? 0) g = false)).
  { induction g as [|[k e] g IH]; cbn [map labels flat_map forallb fst snd]; [cbn; split; [intros []|intros [[]|[_ H]]; discriminate]|].
    unfold labels in IH. rewrite !in_app_iff, IH, map_app, in_app_iff.
    assert (Hm : In p (map snd (match_key k (aget a pos) pos)) <-> p = pos /\ (length (match_key k (aget a pos) pos) =? 0) = false).
    { unfold match_key. destruct (kisz (ksub k (aget a pos))), (kisz (kadd k (aget a pos))); cbn; split; intros H; intuition (subst; auto; try discriminate). }
    rewrite Hm. destruct (length (match_key k (aget a pos) pos) =? 0); cbn [andb]; intuition (try discriminate). }
  destruct (forallb _ g) eqn:F.
  - unfold labels. rewrite flat_map_app, in_app_iff. unfold labels in E. rewrite E. cbn [flat_map map snd app In].
    split; [intros [[H|[_ H]]|[H|[]]]; [auto|discriminate|auto]|intros [H|[-> _]]; auto].
  - rewrite E. intuition auto.
Qed.
Lemma labels_fold a l g p : In p (labels (fold_left (list_step a) l g)) <-> In p (labels g) \/ (In p l /\ kisz (aget a p) = false).
Proof.
  revert g. induction l as [|q l IH]; intros g; cbn [fold_left In]; [intuition auto|]. rewrite IH, labels_incl.
  split; [intros [[H|[-> H]]|[H H']]; auto|intros [H|[[->|H] H']]; auto].
Qed.

(** With a complete zero test. *)
Section Exact.
Hypothesis exact_zero : forall x, keq x k0 -> kisz x = true.
Lemma zero_false x : kisz x = false <-> ~ keq x k0.
Proof. split; [intros H E; apply exact_zero in E; congruence|]. intros H. destruct (kisz x) eqn:E; [|reflexivity]. exfalso. apply H, kisz_ok, E. Qed.

Definition apart (x y : K) : Prop := ~ keq x y /\ ~ keq x (kopp y).
Definition good (g : groups) : Prop :=
  ForallOrdPairs apart (map fst g) /\ (forall key es, In (key, es) g -> ~ keq key k0).

Lemma double_zero x : keq x (kopp x) -> keq x k0.
Proof.
  intros H. assert (E : keq (kadd x x) k0) by (rewrite H at 1; ring).
  assert (K2 := kinvn_ok 2 ltac:(discriminate)). cbn in K2.
  transitivity (kmul (kmul (kadd k1 (kadd k1 k0)) (kinvn 2)) x); [|transitivity (kmul (kinvn 2) (kadd x x)); [ring|rewrite E; ring]].
  rewrite K2. ring.
Qed.

Lemma match_length key c pos : ~ keq c k0 -> length (match_key key c pos) <= 1.
Proof.
  intros Hc. unfold match_key. destruct (kisz (ksub key c)) eqn:E1, (kisz (kadd key c)) eqn:E2; cbn; try lia.
  exfalso. apply Hc, double_zero. apply sub_zero in E1. apply add_zero in E2. rewrite E2 at 1. rewrite E1. reflexivity.
Qed.
Lemma match_none key c pos : apart key c -> match_key key c pos = [].
Proof.
  intros [H1 H2]. unfold match_key. destruct (kisz (ksub key c)) eqn:E1; [exfalso; apply H1; symmetry; apply sub_zero, E1|].
  destruct (kisz (kadd key c)) eqn:E2; [|reflexivity]. exfalso. apply H2. apply add_zero in E2. rewrite E2. ring.
Qed.
Lemma match_nil_apart key c pos : match_key key c pos = [] -> apart key c.
Proof.
  unfold match_key. intros H. split; intros E.
  - rewrite (exact_zero (ksub key c)) in H by (rewrite E; ring). discriminate.
  - rewrite (exact_zero (kadd key c)) in H by (rewrite E; ring). destruct (kisz (ksub key c)); discriminate.
Qed.
Lemma apart_match k k' c pos : apart k k' -> match_key k c pos <> [] -> apart k' c.
Proof.
  intros [N1 N2] H. assert (Hk : keq c k \/ keq c (kopp k)).
  { destruct (match_key k c pos) as [|[s p] l] eqn:E; [congruence|]. destruct (match_key_in k c pos s p) as [_ H']; [rewrite E; left; reflexivity|]. destruct s; auto. }
  split; intros E; destruct Hk as [Hk|Hk].
  - apply N1. rewrite E, Hk. reflexivity.
  - apply N2. rewrite E, Hk. ring.
  - apply N2. rewrite E, Hk. ring.
  - apply N1. rewrite E, Hk. ring.
Qed.

Lemma labels_count g c pos p : ~ keq c k0 -> ForallOrdPairs apart (map fst g) ->
  count_occ (list_eq_dec Nat.eq_dec) (labels (map (fun ke => (fst ke, snd ke ++ match_key (fst ke) c pos)) g)) p =
  count_occ (list_eq_dec Nat.eq_dec) (labels g) p +
  (if list_eq_dec Nat.eq_dec pos p then if forallb (fun ke => length (match_key (fst ke) c pos) =? 0) g then 0 else 1 else 0).
Proof.
  intros Hc. induction g as [|[k e] g IH]; intros F; cbn [map labels flat_map forallb fst snd] in *.
  - cbn. destruct (list_eq_dec _ pos p); reflexivity.
  - inversion F as [|? ? F1 F2]; subst. rewrite map_app, !count_occ_app. specialize (IH F2). unfold labels in IH. rewrite IH.
    assert (Hl := match_length k c pos Hc).
    destruct (match_key k c pos) as [|[s q] l] eqn:E.
    + cbn [map count_occ length Nat.eqb andb]. rewrite Nat.add_0_r. apply Nat.add_assoc.
    + cbn in Hl. destruct l; [|cbn in Hl; lia]. destruct (match_key_in k c pos s q) as [-> _]; [rewrite E; left; reflexivity|].
      cbn [map count_occ length Nat.eqb andb snd].
      assert (Z : forallb (fun ke => length (match_key (fst ke) c pos) =? 0) g = true).
      { apply forallb_forall. intros [k' e'] Hin. rewrite match_none; [reflexivity|]. apply (apart_match k k' c pos); [|rewrite E; discriminate].
        rewrite Forall_forall in F1. apply F1, in_map_iff. exists (k', e'). auto. }
      rewrite Z. destruct (list_eq_dec Nat.eq_dec pos p); lia.
Qed.

Lemma fop_app_one l (x : K) : ForallOrdPairs apart l -> Forall (fun y => apart y x) l -> ForallOrdPairs apart (l ++ [x]).
Proof.
  induction l as [|y l IH]; intros F H; cbn [app]; [constructor; constructor|]. inversion F; subst. inversion H; subst.
  constructor; [|apply IH; assumption]. apply Forall_app. split; [assumption|]. constructor; [assumption|constructor].
Qed.

Lemma step_good a g pos p : good g -> good (list_step a g pos) /\
  count_occ (list_eq_dec Nat.eq_dec) (labels (list_step a g pos)) p =
  count_occ (list_eq_dec Nat.eq_dec) (labels g) p + (if list_eq_dec Nat.eq_dec pos p then if kisz (aget a pos) then 0 else 1 else 0).
Proof.
  intros [F Nz]. unfold list_step. destruct (kisz (aget a pos)) eqn:Z.
  { split; [split; assumption|]. destruct (list_eq_dec _ pos p); lia. }
  apply zero_false in Z. assert (Ct := labels_count g (aget a pos) pos p Z F).
  assert (G1 : good (map (fun ke => (fst ke, snd ke ++ match_key (fst ke) (aget a pos) pos)) g)).
  { split; [rewrite map_map; cbn [fst]; exact F|]. intros key es H. apply in_map_iff in H as ([k e] & E & H). injection E as <- _. eapply Nz, H. }
  destruct (forallb _ g) eqn:Fb.
  - split.
    + split.
      * rewrite map_app. cbn [map fst]. apply fop_app_one; [apply G1|]. rewrite map_map. cbn [fst]. apply Forall_forall. intros k Hk.
        apply in_map_iff in Hk as ([k' e] & <- & H). rewrite forallb_forall in Fb. apply Fb in H. cbn [fst] in *. apply Nat.eqb_eq in H.
        apply (match_nil_apart k' _ pos). destruct (match_key _ _ _); [reflexivity|discriminate].
      * intros key es H. apply in_app_or in H as [H|[H|[]]]; [eapply G1, H|]. injection H as <- _. exact Z.
    + unfold labels in *. rewrite flat_map_app, count_occ_app, Ct. cbn [flat_map map snd app count_occ].
      destruct (list_eq_dec Nat.eq_dec pos p); lia.
  - split; [exact G1|]. rewrite Ct. reflexivity.
Qed.

Lemma fold_good a l p : forall g, good g -> good (fold_left (list_step a) l g) /\
  count_occ (list_eq_dec Nat.eq_dec) (labels (fold_left (list_step a) l g)) p =
  count_occ (list_eq_dec Nat.eq_dec) (labels g) p + (if kisz (aget a p) then 0 else count_occ (list_eq_dec Nat.eq_dec) l p).
Proof.
  induction l as [|q l IH]; intros g G; cbn [fold_left count_occ]; [destruct (kisz (aget a p)); split; auto|].
  destruct (step_good a g q p G) as [G1 C1]. destruct (IH _ G1) as [G2 C2]. split; [exact G2|]. rewrite C2, C1.
  destruct (list_eq_dec Nat.eq_dec q p) as [->|]; destruct (kisz (aget a p)); lia.
Qed.

Theorem groups_exact n r a : r <> 0 ->
  ForallOrdPairs apart (map fst (list_groups n r a)) /\
  (forall key es, In (key, es) (list_groups n r a) -> ~ keq key k0) /\
  forall p, count_occ (list_eq_dec Nat.eq_dec) (labels (list_groups n r a)) p =
    if kisz (aget a p) then 0 else if in_dec (list_eq_dec Nat.eq_dec) p (tuples n r) then 1 else 0.
Proof.
  intros Hr. unfold list_groups. destruct (Nat.eqb_spec r 0); [congruence|].
  assert (G0 : good []) by (split; [constructor|intros ? ? []]).
  destruct (fold_good a (tuples n r) [] [] G0) as [[F Nz] _]. split; [exact F|]. split; [exact Nz|]. intros p.
  destruct (fold_good a (tuples n r) p [] G0) as [_ C]. rewrite C. cbn [labels flat_map count_occ Nat.add]. destruct (kisz (aget a p)); [reflexivity|].
  destruct (in_dec _ p (tuples n r)) as [I|I].
  - apply (proj1 (NoDup_count_occ' _ _) (NoDup_tuples n r) p I).
  - apply count_occ_not_In, I.
Qed.
End Exact.

Lemma groups_sound n r a key es s pos : r <> 0 -> In (key, es) (list_groups n r a) -> In (s, pos) es ->
  keq (aget a pos) (if s then key else kopp key) /\ kisz (aget a pos) = false.
Proof.
  intros Hr. unfold list_groups. destruct (Nat.eqb_spec r 0); [congruence|]. intros H1 H2. eapply (fold_sound a (tuples n r) []); eauto. intros ? ? ? ? [].
Qed.
Lemma groups_labels n r a pos : r <> 0 ->
  ((exists key es s, In (key, es) (list_groups n r a) /\ In (s, pos) es) <-> In pos (tuples n r) /\ kisz (aget a pos) = false).
Proof.
  intros Hr. assert (E : (exists key es s, In (key, es) (list_groups n r a) /\ In (s, pos) es) <-> In pos (labels (list_groups n r a))).
  { unfold labels. rewrite in_flat_map. split.
    - intros (key & es & s & H1 & H2). exists (key, es). split; [exact H1|]. apply in_map_iff. exists (s, pos). auto.
    - intros ([key es] & H1 & H2). apply in_map_iff in H2 as ([s p] & E & H2). cbn in E. subst p. exists key, es, s. auto. }
  rewrite E. unfold list_groups. destruct (Nat.eqb_spec r 0); [congruence|]. rewrite labels_fold. cbn. intuition auto.
Qed.

(** *** Lines *)
Lemma line_count_ok len num m : line_count len num = Ok m -> 0 < num /\ (len <= num * m) /\ (0 < len -> num * (m - 1) < len /\ 0 < m) /\ (len = 0 -> m = 0).
Proof.
  destruct num as [|k]; [discriminate|]. unfold line_count. intros E. assert (Em : m = (len + k) / S k) by congruence. clear E.
  assert (H := Nat.div_mod (len + k) (S k) ltac:(discriminate)). assert (H2 := Nat.mod_upper_bound (len + k) (S k) ltac:(discriminate)).
  rewrite <- Em in H. remember ((len + k) mod S k) as q eqn:Eq. clear Em Eq.
  split; [lia|]. split; [lia|]. split.
  - intros Hl. destruct m as [|m]; [exfalso; rewrite Nat.mul_0_r in H; lia|]. replace (S m - 1) with m by lia. split; [|lia].
    rewrite Nat.mul_succ_r in H. lia.
  - intros ->. destruct m as [|m]; [reflexivity|exfalso]. rewrite Nat.mul_succ_r in H. lia.
Qed.

Lemma lines_value {X} num (v : list X) ls : group_lines num v = Ok ls -> 0 < length v ->
  concat (map fst ls) = v /\
  exists init last, ls = map (fun l => (l, false)) init ++ [(last, true)] /\ Forall (fun l => length l = num) init /\ 0 < length last <= num.
Proof.
  unfold group_lines. destruct (line_count (length v) num) as [m|] eqn:E; [|discriminate]. cbn [rbind]. intros H. injection H as <-. intros Hv.
  apply line_count_ok in E as (Hn & Hm & Hm2 & _). destruct (Hm2 Hv) as [Hm3 Hm4]. clear Hm2.
  destruct m as [|m]; [lia|]. replace (S m - 1) with m in Hm3 by lia. clear Hm4.
  rewrite seq_S, map_app, map_app. cbn [map Nat.add fst].
  assert (Ef : map (fun i => (firstn ((if num * i + num <? length v then num * i + num else length v) - num * i) (skipn (num * i) v), length v <=? num * i + num)) (seq 0 m)
    = map (fun i => (firstn num (skipn (num * i) v), false)) (seq 0 m)).
  { apply map_ext_in. intros i Hi. apply in_seq in Hi. assert (Hlt : num * i + num < length v) by nia.
    destruct (Nat.ltb_spec (num * i + num) (length v)); [|lia]. destruct (Nat.leb_spec (length v) (num * i + num)); [lia|]. f_equal. f_equal. lia. }
  rewrite Ef. clear Ef.
  assert (Ec : forall j, num * j <= length v -> concat (map (fun i => firstn num (skipn (num * i) v)) (seq 0 j)) = firstn (num * j) v).
  { intros j. induction j as [|j IH]; intros Hj; [cbn; rewrite Nat.mul_0_r; reflexivity|]. rewrite seq_S, map_app, concat_app, IH by nia. cbn [map concat Nat.add app].
    rewrite app_nil_r. rewrite <- (firstn_skipn (num * j) v) at 3. rewrite firstn_app, firstn_length_le by nia.
    rewrite firstn_firstn. replace (Nat.min (num * S j) (num * j)) with (num * j) by nia. f_equal. f_equal. nia. }
  split.
  - rewrite concat_app, map_map. cbn [fst]. rewrite Ec by lia. cbn [concat]. rewrite app_nil_r.
    assert (El : length (skipn (num * m) v) = length v - num * m) by apply skipn_length.
    assert (E3 : forall q, length v - num * m <= q -> firstn q (skipn (num * m) v) = skipn (num * m) v) by (intros q Hq; apply firstn_all2; lia).
    rewrite E3; [apply firstn_skipn|]. destruct (Nat.ltb_spec (num * m + num) (length v)); lia.
  - exists (map (fun i => firstn num (skipn (num * i) v)) (seq 0 m)), (firstn ((if num * m + num <? length v then num * m + num else length v) - num * m) (skipn (num * m) v)).
    split; [rewrite map_map; f_equal; f_equal; f_equal; apply Nat.leb_le; nia|]. split.
    + apply Forall_forall. intros l Hl. apply in_map_iff in Hl as (i & <- & Hi). apply in_seq in Hi. rewrite firstn_length_le; [reflexivity|]. rewrite skipn_length. nia.
    + rewrite firstn_length, skipn_length. destruct (Nat.ltb_spec (num * m + num) (length v)); nia.
Qed.
Lemma lines_total {X} num (v : list X) : 0 < num -> exists ls, group_lines num v = Ok ls.
Proof. intros H. unfold group_lines, line_count. destruct num; [lia|]. eexists. reflexivity. Qed.

Lemma latex_total num g : 0 < num -> exists ls, list_latex num g = Ok ls /\ map fst ls = map fst g /\
  Forall2 (fun ke kl => group_lines num (snd ke) = Ok (snd kl)) g ls.
Proof.
  intros Hn. induction g as [|[k v] g (ls & E & E2 & F)]; [exists []; auto|]. destruct (lines_total num v Hn) as (l & El).
  exists ((k, l) :: ls). cbn [list_latex]. rewrite El. cbn [rbind]. rewrite E. cbn [rbind]. split; [reflexivity|]. split; [cbn; f_equal; exact E2|]. constructor; [exact El|exact F].
Qed.
Lemma latex_zero g : g <> [] -> list_latex 0 g = Err EZeroDivision.
Proof. destruct g as [|[k v] g]; [congruence|]. reflexivity. Qed.
End ListP.

Section ListP2.
Context {A : AlgOps} {L : AlgLaws A}.
Lemma groups_nonempty n r a key es : In (key, es) (list_groups n r a) -> es <> [].
Proof.
  unfold list_groups. destruct (r =? 0); [intros [H|[]]; injection H as _ <-; discriminate|].
  assert (G : forall l g, (forall k e, In (k, e) g -> e <> []) -> forall k e, In (k, e) (fold_left (list_step a) l g) -> e <> []).
  { induction l as [|p l IH]; intros g Hg; [exact Hg|]. cbn [fold_left]. apply IH. clear IH. intros k e H. unfold list_step in H.
    destruct (kisz (aget a p)); [eapply Hg, H|].
    assert (N : forall k e, In (k, e) (map (fun ke => (fst ke, snd ke ++ match_key (fst ke) (aget a p) p)) g) -> e <> []).
    { intros k' e' H'. apply in_map_iff in H' as ([k'' e''] & E & H'). injection E as <- <-. cbn [snd fst]. apply Hg in H'. destruct e''; [congruence|discriminate]. }
    destruct (forallb _ g); [|eapply N, H]. apply in_app_or in H as [H|[H|[]]]; [eapply N, H|]. injection H as _ <-. discriminate. }
  apply G. intros ? ? [].
Qed.

Lemma latex_ok num n r a : 0 < num -> exists ls, list_latex num (list_groups n r a) = Ok ls /\
  Forall2 (fun ke kl => fst kl = fst ke /\ concat (map fst (snd kl)) = snd ke /\
    exists init last, snd kl = map (fun l => (l, false)) init ++ [(last, true)] /\
      Forall (fun l => length l = num) init /\ 0 < length last <= num) (list_groups n r a) ls.
Proof.
  intros Hn. destruct (latex_total num (list_groups n r a) Hn) as (ls & E & E2 & F). exists ls. split; [exact E|]. clear E.
  assert (N := groups_nonempty n r a). revert N E2 F. generalize (list_groups n r a). intros g N E2 F. revert N E2.
  induction F as [|[k v] [k' l] g ls H F IH]; intros N E2; constructor.
  - cbn [fst snd map] in *. injection E2 as -> E2. split; [reflexivity|]. apply lines_value in H; [exact H|].
    specialize (N k v (or_introl eq_refl)). destruct v; [congruence|cbn; lia].
  - cbn [map] in E2. injection E2 as _ E2. apply IH; [|exact E2]. intros key es H'. apply (N key es). right. exact H'.
Qed.

Lemma groups_some n r a pos : r <> 0 -> In pos (tuples n r) -> kisz (aget a pos) = false -> list_groups n r a <> [].
Proof. intros Hr Hp Hz E. destruct (proj2 (groups_labels n r a pos Hr) (conj Hp Hz)) as (k & es & s & H & _). rewrite E in H. destruct H. Qed.

Lemma zero_per_line n r a pos : r <> 0 -> In pos (tuples n r) -> kisz (aget a pos) = false ->
  set_list_per_line 0 = Ok 0 /\ list_latex 0 (list_groups n r a) = Err EZeroDivision.
Proof. intros Hr Hp Hz. split; [reflexivity|]. apply latex_zero. eapply groups_some; eauto. Qed.

Lemma groups_all n r a : cubic n a -> r = rank a -> r <> 0 -> (forall x, keq x k0 -> kisz x = true) ->
  (forall pos, inb (shape a) pos = true ->
     (keq (aget a pos) k0 -> ~ exists key es s, In (key, es) (list_groups n r a) /\ In (s, pos) es) /\
     (~ keq (aget a pos) k0 -> count_occ (list_eq_dec Nat.eq_dec) (flat_map (fun ke => map snd (snd ke)) (list_groups n r a)) pos = 1)) /\
  (forall key es s pos, In (key, es) (list_groups n r a) -> In (s, pos) es ->
     inb (shape a) pos = true /\ keq (aget a pos) (if s then key else kopp key)) /\
  (forall key es, In (key, es) (list_groups n r a) -> ~ keq key k0) /\
  ForallOrdPairs (fun x y => ~ keq x y /\ ~ keq x (kopp y)) (map fst (list_groups n r a)).
Proof.
  intros [_ Hs] Hr Hr0 Hz. assert (In_sh : forall pos, inb (shape a) pos = true <-> In pos (tuples n r)).
  { intros pos. rewrite Hs, tuples_all_idx, in_all_idx, <- Hr. reflexivity. }
  destruct (groups_exact Hz n r a Hr0) as (F & Nz & Ct). split.
  - intros pos Hp. apply In_sh in Hp. split.
    + intros E H. apply (groups_labels n r a pos Hr0) in H as [_ H]. apply Hz in E. congruence.
    + intros N. specialize (Ct pos). unfold labels in Ct. rewrite Ct. destruct (kisz (aget a pos)) eqn:E; [exfalso; apply N, kisz_ok, E|].
      destruct (in_dec _ pos (tuples n r)); [reflexivity|contradiction].
  - split; [|split; [exact Nz|exact F]]. intros key es s pos H1 H2. split; [|eapply groups_sound; eauto].
    apply In_sh. apply (groups_labels n r a pos Hr0). exists key, es, s. auto.
Qed.
End ListP2.
