(** Lemmas about slices, permutations and contractions of arrays. *)
From Coq Require Import Permutation.
From Verif Require Import Alg Alg_P Arr Arr_P Spec.
Local Open Scope K_scope.

(** ** Positions *)

Lemma existsb_eqb_true x l : existsb (Nat.eqb x) l = true <-> In x l.
Proof.
  rewrite existsb_exists. split.
  - intros (y & Hy & E). apply Nat.eqb_eq in E; subst; exact Hy.
  - intros H; exists x; split; [exact H|apply Nat.eqb_refl].
Qed.

Lemma existsb_eqb_false x l : existsb (Nat.eqb x) l = false <-> ~ In x l.
Proof. rewrite <- existsb_eqb_true. destruct (existsb (Nat.eqb x) l); split; congruence. Qed.

Lemma index_of_some x l j :
  index_of Nat.eqb x l = Some j -> (j < length l)%nat /\ nth j l 0%nat = x.
Proof.
  revert j; induction l as [|y l IH]; intros j H; cbn in H; [discriminate|].
  destruct (x =? y)%nat eqn:E.
  - injection H as <-. apply Nat.eqb_eq in E. cbn; split; [lia|congruence].
  - destruct (index_of Nat.eqb x l) as [i|]; [|discriminate].
    injection H as <-. destruct (IH i eq_refl) as [H1 H2]. cbn; split; [lia|exact H2].
Qed.

Lemma index_of_none x l : index_of Nat.eqb x l = None <-> ~ In x l.
Proof.
  induction l as [|y l IH]; cbn.
  - split; [intros _ []|reflexivity].
  - destruct (x =? y)%nat eqn:E.
    + apply Nat.eqb_eq in E; subst. split; [discriminate|]. intros H; exfalso; apply H; left; reflexivity.
    + apply Nat.eqb_neq in E.
      destruct (index_of Nat.eqb x l) as [i|]; split; intros H; try discriminate; try reflexivity.
      * exfalso. destruct IH as [_ IH2]. assert (Hn : Some i = None); [|discriminate].
        apply IH2. intros Hx; apply H; right; exact Hx.
      * intros [Hx|Hx]; [congruence|]. apply IH in Hx; [exact Hx|reflexivity].
Qed.

Lemma index_of_nth l j : NoDup l -> (j < length l)%nat -> index_of Nat.eqb (nth j l 0%nat) l = Some j.
Proof.
  revert j; induction l as [|y l IH]; intros j Hd Hj; cbn in Hj; [lia|].
  inversion Hd as [|y' l' Hy Hd' E]; subst.
  destruct j as [|j]; cbn.
  - rewrite Nat.eqb_refl; reflexivity.
  - destruct (nth j l 0%nat =? y)%nat eqn:E.
    + apply Nat.eqb_eq in E. exfalso; apply Hy. rewrite <- E. apply nth_In; lia.
    + rewrite IH by (assumption || lia). reflexivity.
Qed.

Lemma free_pos_S r pos :
  free_pos (S r) pos = free_pos r pos ++ (if existsb (Nat.eqb r) pos then [] else [r]).
Proof.
  unfold free_pos. rewrite seq_S, filter_app; cbn.
  destruct (existsb (Nat.eqb r) pos); reflexivity.
Qed.

Lemma in_free_pos r pos q : In q (free_pos r pos) <-> (q < r)%nat /\ ~ In q pos.
Proof.
  unfold free_pos. rewrite filter_In, in_seq, negb_true_iff, existsb_eqb_false.
  intuition lia.
Qed.

Lemma NoDup_free_pos r pos : NoDup (free_pos r pos).
Proof. apply NoDup_filter, seq_NoDup. Qed.

Lemma NoDup_app_free p l r :
  NoDup p -> (forall z, In z p -> In z l) -> NoDup (p ++ free_pos r l).
Proof.
  induction p as [|z p IHp]; intros Hp Hl; cbn; [apply NoDup_free_pos|].
  inversion Hp as [|z' p' Hz Hp' E]; subst. constructor.
  - rewrite in_app_iff, in_free_pos. intros [H|[_ H]]; [contradiction|].
    apply H, Hl; left; reflexivity.
  - apply IHp; [exact Hp'|]. intros w Hw; apply Hl; right; exact Hw.
Qed.

Lemma free_pos_perm r pos :
  NoDup pos -> Forall (fun q => (q < r)%nat) pos -> Permutation (pos ++ free_pos r pos) (seq 0 r).
Proof.
  intros Hd Hf. apply NoDup_Permutation.
  - apply NoDup_app_free; [exact Hd|auto].
  - apply seq_NoDup.
  - intros x. rewrite in_app_iff, in_free_pos, in_seq.
    rewrite Forall_forall in Hf. split.
    + intros [H|[H _]]; [apply Hf in H; lia|lia].
    + intros [_ H]. destruct (existsb (Nat.eqb x) pos) eqn:E.
      * left; apply existsb_eqb_true; exact E.
      * right; split; [lia|apply existsb_eqb_false; exact E].
Qed.

Lemma free_pos_length r pos :
  NoDup pos -> Forall (fun q => (q < r)%nat) pos -> (length (free_pos r pos) + length pos = r)%nat.
Proof.
  intros Hd Hf. assert (H := Permutation_length (free_pos_perm r pos Hd Hf)).
  rewrite app_length, seq_length in H. lia.
Qed.

Lemma length_place r pos ks f : length (place r pos ks f) = r.
Proof. unfold place; rewrite map_length, seq_length; reflexivity. Qed.

Lemma nth_map_seq {X} (g : nat -> X) r q d : (q < r)%nat -> nth q (map g (seq 0 r)) d = g q.
Proof.
  intros H. rewrite nth_indep with (d' := g 0%nat) by (rewrite map_length, seq_length; exact H).
  rewrite map_nth. rewrite seq_nth by exact H. reflexivity.
Qed.

Lemma nth_place r pos ks f q :
  (q < r)%nat ->
  nth q (place r pos ks f) 0%nat =
  match index_of Nat.eqb q pos with
  | Some j => nth j ks 0%nat
  | None => nth (length (free_pos q pos)) f 0%nat
  end.
Proof. intros H; unfold place; rewrite nth_map_seq by exact H; reflexivity. Qed.

Lemma free_pos_mono pos q r : (q <= r)%nat -> (length (free_pos q pos) <= length (free_pos r pos))%nat.
Proof.
  induction 1 as [|r H IH]; [lia|]. rewrite free_pos_S, app_length. lia.
Qed.

Lemma free_pos_lt pos q r :
  (q < r)%nat -> ~ In q pos -> (length (free_pos q pos) < length (free_pos r pos))%nat.
Proof.
  intros Hq Hn. assert (H := free_pos_mono pos (S q) r Hq).
  rewrite free_pos_S, app_length in H.
  rewrite (proj2 (existsb_eqb_false q pos) Hn) in H. cbn in H; lia.
Qed.

Lemma nth_free_pos pos q r :
  (q < r)%nat -> ~ In q pos -> nth (length (free_pos q pos)) (free_pos r pos) 0%nat = q.
Proof.
  induction r as [|r IH]; intros Hq Hn; [lia|].
  rewrite free_pos_S.
  destruct (Nat.eq_dec q r) as [->|Hne].
  - rewrite (proj2 (existsb_eqb_false r pos) Hn).
    rewrite app_nth2 by lia. rewrite Nat.sub_diag; reflexivity.
  - rewrite app_nth1 by (apply free_pos_lt; [lia|exact Hn]).
    apply IH; [lia|exact Hn].
Qed.

(** The tuple built by [place] has the chosen values at the chosen positions and the free
    values at the free positions. *)
Lemma place_spec r pos ks f :
  NoDup pos -> Forall (fun q => (q < r)%nat) pos -> length ks = length pos ->
  (length f + length pos = r)%nat ->
  length (place r pos ks f) = r /\
  map (fun q => nth q (place r pos ks f) 0%nat) pos = ks /\
  map (fun q => nth q (place r pos ks f) 0%nat) (free_pos r pos) = f.
Proof.
  intros Hd Hr Hk Hf. split; [apply length_place|]. split.
  - apply nth_ext with (d := 0%nat) (d' := 0%nat); [rewrite map_length; congruence|].
    rewrite map_length; intros j Hj.
    rewrite nth_indep with (d' := nth 0%nat (place r pos ks f) 0%nat) by (rewrite map_length; exact Hj).
    rewrite (map_nth (fun q => nth q (place r pos ks f) 0%nat)).
    rewrite nth_place.
    + rewrite index_of_nth by assumption. reflexivity.
    + rewrite Forall_forall in Hr; apply Hr, nth_In; exact Hj.
  - assert (Hl := free_pos_length r pos Hd Hr).
    apply nth_ext with (d := 0%nat) (d' := 0%nat); [rewrite map_length; lia|].
    rewrite map_length; intros j Hj.
    rewrite nth_indep with (d' := nth 0%nat (place r pos ks f) 0%nat) by (rewrite map_length; exact Hj).
    rewrite (map_nth (fun q => nth q (place r pos ks f) 0%nat)).
    assert (Hin : In (nth j (free_pos r pos) 0%nat) (free_pos r pos)) by (apply nth_In; exact Hj).
    apply in_free_pos in Hin as [Hlt Hn].
    rewrite nth_place by exact Hlt.
    rewrite (proj2 (index_of_none _ _) Hn).
    f_equal.
    apply (proj1 (NoDup_nth (free_pos r pos) 0%nat) (NoDup_free_pos r pos)).
    + apply free_pos_lt; assumption.
    + exact Hj.
    + apply nth_free_pos; assumption.
Qed.

Lemma inb_place n r pos ks f :
  NoDup pos -> Forall (fun q => (q < r)%nat) pos -> length ks = length pos ->
  (length f + length pos = r)%nat ->
  Forall (fun i => (i < n)%nat) ks -> Forall (fun i => (i < n)%nat) f ->
  inb (repeat n r) (place r pos ks f) = true.
Proof.
  intros Hd Hr Hk Hf Hkn Hfn. apply inb_repeat. split; [apply length_place|].
  rewrite Forall_forall in Hkn, Hfn |- *. unfold place. intros x Hx.
  apply in_map_iff in Hx as (q & <- & Hq). apply in_seq in Hq.
  destruct (index_of Nat.eqb q pos) as [j|] eqn:E.
  - apply index_of_some in E as [Hj _]. apply Hkn, nth_In; lia.
  - apply index_of_none in E. apply Hfn, nth_In.
    assert (H1 := free_pos_lt pos q r ltac:(lia) E).
    assert (H2 := free_pos_length r pos Hd Hr). lia.
Qed.

(** ** Slices *)

Fixpoint nnone (s : list (option nat)) : nat :=
  match s with [] => 0 | None :: s' => S (nnone s') | Some _ :: s' => nnone s' end.

Lemma nnone_app s t : nnone (s ++ t) = (nnone s + nnone t)%nat.
Proof. induction s as [|[x|] s IH]; cbn; [reflexivity|exact IH|rewrite IH; reflexivity]. Qed.

Lemma slice_idx_length s idx : length (slice_idx s idx) = length s.
Proof. revert idx; induction s as [|[x|] s IH]; intros idx; cbn; [reflexivity|rewrite IH; reflexivity|destruct idx; cbn; rewrite IH; reflexivity]. Qed.

Lemma nth_slice_idx s idx q :
  (q < length s)%nat ->
  nth q (slice_idx s idx) 0%nat =
  match nth q s None with Some i => i | None => nth (nnone (firstn q s)) idx 0%nat end.
Proof.
  revert idx q; induction s as [|o s IH]; intros idx q Hq; cbn in Hq; [lia|].
  destruct q as [|q].
  - cbn. destruct o as [x|]; [reflexivity|]. destruct idx; reflexivity.
  - destruct o as [x|]; cbn.
    + apply IH; lia.
    + destruct idx as [|i idx]; cbn; rewrite IH by lia.
      * destruct (nth q s None); [reflexivity|]. destruct (nnone (firstn q s)); reflexivity.
      * reflexivity.
Qed.

Lemma slice_ok_repeat n s :
  slice_ok (repeat n (length s)) s = true <->
  forall q i, nth q s None = Some i -> (i < n)%nat.
Proof.
  induction s as [|o s IH]; cbn [length repeat slice_ok].
  - split; [intros _ [|q] i H; discriminate|reflexivity].
  - destruct o as [x|].
    + rewrite andb_true_iff, Nat.ltb_lt, IH. split.
      * intros [Hx H] [|q] i Hi; cbn in Hi; [congruence|apply (H q); exact Hi].
      * intros H; split; [apply (H 0%nat); reflexivity|]. intros q i Hi; apply (H (S q)); exact Hi.
    + rewrite IH. split.
      * intros H [|q] i Hi; cbn in Hi; [discriminate|apply (H q); exact Hi].
      * intros H q i Hi; apply (H (S q)); exact Hi.
Qed.

Lemma slice_shape_repeat n s : slice_shape (repeat n (length s)) s = repeat n (nnone s).
Proof. induction s as [|[x|] s IH]; cbn; [reflexivity|exact IH|rewrite IH; reflexivity]. Qed.

Lemma inb_slice_idx sh s idx :
  slice_ok sh s = true -> inb (slice_shape sh s) idx = true -> inb sh (slice_idx s idx) = true.
Proof.
  revert s idx; induction sh as [|d sh IH]; intros [|[x|] s] idx Hs Hi; cbn [slice_ok] in Hs; try discriminate.
  - reflexivity.
  - apply andb_prop in Hs as [Hx Hs]. cbn [slice_idx slice_shape] in *.
    rewrite inb_cons, Hx; cbn. apply IH; assumption.
  - cbn [slice_shape] in Hi. destruct idx as [|i idx]; [discriminate|].
    rewrite inb_cons in Hi. apply andb_prop in Hi as [Hi1 Hi2].
    cbn [slice_idx]. rewrite inb_cons, Hi1; cbn. apply IH; assumption.
Qed.

(** ** Slice tuples built by contract *)
From Verif Require Import UtilsM.

Lemma slice_tuple_length r pos ks : length (slice_tuple r pos ks) = r.
Proof.
  unfold slice_tuple.
  assert (G : forall l (s : list (option nat)),
             length (fold_left (fun s pk => set_nth (fst pk) (Some (snd pk)) s) l s) = length s).
  { induction l as [|p l IH]; intros s; cbn; [reflexivity|]. rewrite IH, set_nth_length; reflexivity. }
  rewrite G, repeat_length; reflexivity.
Qed.

Lemma nth_slice_tuple_gen l (s : list (option nat)) q :
  NoDup (map fst l) -> (q < length s)%nat ->
  nth q (fold_left (fun s pk => set_nth (fst pk) (Some (snd pk)) s) l s) None =
  match index_of Nat.eqb q (map fst l) with
  | Some j => Some (nth j (map snd l) 0%nat)
  | None => nth q s None
  end.
Proof.
  revert s; induction l as [|[p k] l IH]; intros s Hd Hq; cbn; [reflexivity|].
  cbn in Hd. inversion Hd as [|p' l' Hp Hd' E]; subst.
  rewrite IH by (try exact Hd'; rewrite set_nth_length; exact Hq).
  destruct (q =? p)%nat eqn:E.
  - apply Nat.eqb_eq in E; subst p.
    rewrite (proj2 (index_of_none _ _) Hp). rewrite nth_set_nth_same by exact Hq. reflexivity.
  - apply Nat.eqb_neq in E.
    destruct (index_of Nat.eqb q (map fst l)); [reflexivity|].
    apply nth_set_nth_other; congruence.
Qed.

Lemma map_fst_combine {X Y} (l : list X) (l' : list Y) :
  length l = length l' -> map fst (combine l l') = l.
Proof.
  revert l'; induction l as [|x l IH]; intros [|y l'] H; cbn in *; try discriminate; [reflexivity|].
  rewrite IH by lia; reflexivity.
Qed.

Lemma map_snd_combine {X Y} (l : list X) (l' : list Y) :
  length l = length l' -> map snd (combine l l') = l'.
Proof.
  revert l'; induction l as [|x l IH]; intros [|y l'] H; cbn in *; try discriminate; [reflexivity|].
  rewrite IH by lia; reflexivity.
Qed.

Lemma nth_slice_tuple r pos ks q :
  NoDup pos -> length ks = length pos -> (q < r)%nat ->
  nth q (slice_tuple r pos ks) None =
  match index_of Nat.eqb q pos with Some j => Some (nth j ks 0%nat) | None => None end.
Proof.
  intros Hd Hk Hq. unfold slice_tuple.
  rewrite nth_slice_tuple_gen.
  - rewrite map_fst_combine, map_snd_combine by congruence.
    destruct (index_of Nat.eqb q pos); [reflexivity|].
    apply nth_repeat_lt; exact Hq.
  - rewrite map_fst_combine by congruence; exact Hd.
  - rewrite repeat_length; exact Hq.
Qed.

Lemma firstn_S_nth {X} q (l : list X) d :
  (q < length l)%nat -> firstn (S q) l = firstn q l ++ [nth q l d].
Proof.
  revert q; induction l as [|x l IH]; intros q H; cbn in H; [lia|].
  destruct q as [|q]; [reflexivity|]. cbn [firstn app nth]. rewrite <- IH by lia. reflexivity.
Qed.

Lemma nnone_slice_tuple r pos ks q :
  NoDup pos -> length ks = length pos -> (q <= r)%nat ->
  nnone (firstn q (slice_tuple r pos ks)) = length (free_pos q pos).
Proof.
  intros Hd Hk. induction q as [|q IH]; intros Hq; [reflexivity|].
  rewrite firstn_S_nth with (d := None) by (rewrite slice_tuple_length; lia).
  rewrite nnone_app, IH by lia. rewrite free_pos_S, app_length.
  rewrite nth_slice_tuple by (assumption || lia).
  destruct (index_of Nat.eqb q pos) as [j|] eqn:E.
  - destruct (existsb (Nat.eqb q) pos) eqn:E2; [reflexivity|].
    apply existsb_eqb_false in E2. apply index_of_none in E2. congruence.
  - apply index_of_none in E. rewrite (proj2 (existsb_eqb_false _ _) E). reflexivity.
Qed.

Lemma slice_idx_tuple r pos ks f :
  NoDup pos -> length ks = length pos ->
  slice_idx (slice_tuple r pos ks) f = place r pos ks f.
Proof.
  intros Hd Hk. apply nth_ext with (d := 0%nat) (d' := 0%nat).
  - rewrite slice_idx_length, slice_tuple_length, length_place; reflexivity.
  - rewrite slice_idx_length, slice_tuple_length. intros q Hq.
    rewrite nth_slice_idx by (rewrite slice_tuple_length; exact Hq).
    rewrite nth_slice_tuple, nth_place, nnone_slice_tuple by (assumption || lia).
    destruct (index_of Nat.eqb q pos); reflexivity.
Qed.

Section Arr2P.
Context {A : AlgOps}.

(** Slicing a cubic array at chosen positions. *)
Lemma aslice_tuple n a pos ks :
  cubic n a -> NoDup pos -> Forall (fun q => (q < rank a)%nat) pos ->
  length ks = length pos -> Forall (fun i => (i < n)%nat) ks ->
  exists b, aslice a (slice_tuple (rank a) pos ks) = Ok b /\ awf b /\
            shape b = repeat n (rank a - length pos)%nat /\
            forall f, inb (shape b) f = true -> aget b f = aget a (place (rank a) pos ks f).
Proof.
  intros [Hw Hs] Hd Hr Hk Hn. unfold aslice.
  assert (Hlen := slice_tuple_length (rank a) pos ks).
  assert (Hsh : shape a = repeat n (length (slice_tuple (rank a) pos ks))) by (rewrite Hlen; exact Hs).
  assert (Hok : slice_ok (shape a) (slice_tuple (rank a) pos ks) = true).
  { rewrite Hsh. apply slice_ok_repeat. intros q i Hi.
    destruct (Nat.lt_ge_cases q (rank a)) as [Hq|Hq].
    - rewrite nth_slice_tuple in Hi by assumption.
      destruct (index_of Nat.eqb q pos) as [j|] eqn:E; [|discriminate].
      injection Hi as <-. apply index_of_some in E as [Hj _].
      rewrite Forall_forall in Hn; apply Hn, nth_In; lia.
    - rewrite nth_overflow in Hi by lia. discriminate. }
  rewrite Hok. eexists; split; [reflexivity|]. split; [apply awf_tab|].
  assert (Hshape : slice_shape (shape a) (slice_tuple (rank a) pos ks) = repeat n (rank a - length pos)%nat).
  { rewrite Hsh, slice_shape_repeat. f_equal.
    assert (H := nnone_slice_tuple (rank a) pos ks (rank a) Hd Hk (Nat.le_refl _)).
    rewrite firstn_all2 in H by lia. rewrite H.
    assert (H2 := free_pos_length (rank a) pos Hd Hr). lia. }
  split; [exact Hshape|]. intros f Hf. rewrite shape_tab in Hf.
  rewrite aget_tab by exact Hf. rewrite slice_idx_tuple by assumption. reflexivity.
Qed.

(** ** Permutations *)

Lemma is_perm_true p r : is_perm p r = true <-> Permutation p (seq 0 r).
Proof.
  unfold is_perm. rewrite andb_true_iff, Nat.eqb_eq, forallb_forall. split.
  - intros [Hl H]. symmetry. apply NoDup_Permutation_bis.
    + apply seq_NoDup.
    + rewrite seq_length; lia.
    + intros x Hx. apply existsb_eqb_true, H; exact Hx.
  - intros H. split.
    + rewrite (Permutation_length H), seq_length; reflexivity.
    + intros x Hx. apply existsb_eqb_true. apply (Permutation_in x (Permutation_sym H)); exact Hx.
Qed.

Lemma unperm_length p idx : length (unperm p idx) = length p.
Proof. unfold unperm; rewrite map_length, seq_length; reflexivity. Qed.

(** Entry k of [idx] ends at position p[k]. *)
Lemma nth_unperm p idx r k :
  Permutation p (seq 0 r) -> (k < r)%nat -> nth (nth k p 0%nat) (unperm p idx) 0%nat = nth k idx 0%nat.
Proof.
  intros Hp Hk. assert (Hl := Permutation_length Hp). rewrite seq_length in Hl.
  assert (Hin : In (nth k p 0%nat) (seq 0 r)).
  { apply (Permutation_in _ Hp), nth_In; lia. }
  apply in_seq in Hin. unfold unperm. rewrite nth_map_seq by lia.
  rewrite index_of_nth; [reflexivity| |lia].
  apply (Permutation_NoDup (Permutation_sym Hp)), seq_NoDup.
Qed.

Lemma unperm_unique p idx r full :
  Permutation p (seq 0 r) -> length full = r -> length idx = r ->
  (forall k, (k < r)%nat -> nth (nth k p 0%nat) full 0%nat = nth k idx 0%nat) ->
  unperm p idx = full.
Proof.
  intros Hp Hf Hi H. assert (Hl := Permutation_length Hp). rewrite seq_length in Hl.
  apply nth_ext with (d := 0%nat) (d' := 0%nat); [rewrite unperm_length; lia|].
  rewrite unperm_length. intros q Hq. unfold unperm; rewrite nth_map_seq by exact Hq.
  assert (Hin : In q p).
  { apply (Permutation_in q (Permutation_sym Hp)), in_seq; lia. }
  destruct (index_of Nat.eqb q p) as [j|] eqn:E.
  - apply index_of_some in E as [Hj E]. rewrite <- H by lia. rewrite E; reflexivity.
  - apply index_of_none in E; contradiction.
Qed.

Lemma inb_unperm sh p idx :
  Permutation p (seq 0 (length sh)) ->
  inb (map (fun k => nth k sh 0%nat) p) idx = true -> inb sh (unperm p idx) = true.
Proof.
  intros Hp H. assert (Hl := Permutation_length Hp). rewrite seq_length in Hl.
  apply inb_nth in H as [Hlen H]. rewrite map_length in Hlen, H.
  apply inb_nth. split; [rewrite unperm_length; exact Hl|].
  intros q Hq. assert (Hin : In q p).
  { apply (Permutation_in q (Permutation_sym Hp)), in_seq; lia. }
  destruct (In_nth p q 0%nat Hin) as (j & Hj & <-).
  rewrite (nth_unperm p idx (length sh)) by (assumption || lia).
  specialize (H j Hj).
  rewrite (nth_map_lt _ _ _ _ 0%nat) in H by exact Hj. exact H.
Qed.

Lemma permutedims_ok a p :
  Permutation p (seq 0 (rank a)) ->
  exists b, permutedims a p = Ok b /\ awf b /\ shape b = map (fun k => nth k (shape a) 0%nat) p /\
            forall idx, inb (shape b) idx = true -> aget b idx = aget a (unperm p idx).
Proof.
  intros Hp. unfold permutedims. rewrite (proj2 (is_perm_true p (rank a)) Hp).
  eexists; split; [reflexivity|]. split; [apply awf_tab|]. split; [reflexivity|].
  intros idx Hi; rewrite shape_tab in Hi. rewrite aget_tab by exact Hi. reflexivity.
Qed.

Lemma permutedims_cubic n a p :
  cubic n a -> Permutation p (seq 0 (rank a)) ->
  exists b, permutedims a p = Ok b /\ awf b /\ shape b = shape a /\
            forall idx, inb (shape a) idx = true -> aget b idx = aget a (unperm p idx).
Proof.
  intros [Hw Hs] Hp. destruct (permutedims_ok a p Hp) as (b & E & Hb & Hsb & H).
  exists b. assert (Hsh : shape b = shape a).
  { rewrite Hsb. assert (Hl := Permutation_length Hp). rewrite seq_length in Hl.
    transitivity (repeat n (rank a)); [|symmetry; exact Hs]. rewrite <- Hl.
    assert (G : forall q, In q p -> nth q (shape a) 0%nat = n).
    { intros q Hq. rewrite Hs. apply nth_repeat_lt.
      apply (Permutation_in q Hp), in_seq in Hq; lia. }
    clear - G. induction p as [|x p IH]; cbn; [reflexivity|].
    rewrite G by (left; reflexivity). f_equal. apply IH. intros q Hq; apply G; right; exact Hq. }
  split; [exact E|]. split; [exact Hb|]. split; [exact Hsh|]. rewrite <- Hsh; exact H.
Qed.

End Arr2P.
