(** Lemmas about the array model. *)
From Coq Require Import Permutation.
From Verif Require Import Alg Alg_P Arr.
Local Open Scope K_scope.

(** ** Generic list lemmas *)

Lemma is_ok_ex {X} (r : res X) : is_ok r = true -> exists x, r = Ok x.
Proof. destruct r as [x|e]; [intros _; exists x; reflexivity|discriminate]. Qed.

Lemma is_err_eq {X} e (r : res X) : is_err e r = true -> r = Err e.
Proof. destruct r as [x|e']; [discriminate|]. destruct e, e'; cbn; intros H; try discriminate; reflexivity. Qed.

Ltac vmtrue := vm_cast_no_check (eq_refl true).

Lemma nth_error_flat_map_block {X Y} (h : X -> list Y) (l : list X) m i o x :
  (forall y, In y l -> length (h y) = m) ->
  nth_error l i = Some x -> (o < m)%nat ->
  nth_error (flat_map h l) (i * m + o) = nth_error (h x) o.
Proof.
  revert i; induction l as [|y l IH]; intros i Hm Hi Ho.
  - destruct i; discriminate.
  - cbn. destruct i as [|i].
    + cbn in Hi; injection Hi as ->.
      cbn. rewrite nth_error_app1; [reflexivity|].
      rewrite Hm; [exact Ho|left; reflexivity].
    + cbn in Hi.
      rewrite nth_error_app2; rewrite Hm by (left; reflexivity).
      * replace (S i * m + o - m)%nat with (i * m + o)%nat by (cbn; lia).
        apply IH; [|exact Hi|exact Ho].
        intros z Hz; apply Hm; right; exact Hz.
      * cbn; lia.
Qed.

Lemma flat_map_length_const {X Y} (h : X -> list Y) (l : list X) m :
  (forall y, In y l -> length (h y) = m) -> length (flat_map h l) = (length l * m)%nat.
Proof.
  induction l as [|y l IH]; intros Hm; cbn; [reflexivity|].
  rewrite app_length, IH, Hm; [lia|left; reflexivity|].
  intros z Hz; apply Hm; right; exact Hz.
Qed.

Lemma nth_error_seq s n i : (i < n)%nat -> nth_error (seq s n) i = Some (s + i)%nat.
Proof.
  revert s i; induction n as [|n IH]; intros s i Hi; [lia|].
  destruct i as [|i]; cbn; [f_equal; lia|].
  rewrite IH by lia; f_equal; lia.
Qed.

Lemma NoDup_flat_map {X Y} (h : X -> list Y) (l : list X) :
  NoDup l -> (forall x, In x l -> NoDup (h x)) ->
  (forall x y z, In x l -> In y l -> In z (h x) -> In z (h y) -> x = y) ->
  NoDup (flat_map h l).
Proof.
  induction l as [|x l IH]; intros Hl Hh Hd; cbn; [constructor|].
  inversion Hl as [|x' l' Hx Hl' E]; subst.
  assert (Happ : forall (a b : list Y), NoDup a -> NoDup b ->
            (forall z, In z a -> In z b -> False) -> NoDup (a ++ b)).
  { induction a as [|z a IHa]; intros b Ha Hb Hab; cbn; [exact Hb|].
    inversion Ha as [|z' a' Hz Ha' E]; subst.
    constructor.
    - rewrite in_app_iff; intros [H|H]; [contradiction|].
      apply (Hab z); [left; reflexivity|exact H].
    - apply IHa; [exact Ha'|exact Hb|].
      intros y Hy1 Hy2; apply (Hab y); [right; exact Hy1|exact Hy2]. }
  apply Happ.
  - apply Hh; left; reflexivity.
  - apply IH; [exact Hl'|intros y Hy; apply Hh; right; exact Hy|].
    intros y z w Hy Hz Hw1 Hw2; apply (Hd y z w); [right; exact Hy|right; exact Hz|exact Hw1|exact Hw2].
  - intros z Hz1 Hz2. apply in_flat_map in Hz2 as (y & Hy & Hz2).
    assert (x = y) by (apply (Hd x y z); [left; reflexivity|right; exact Hy|exact Hz1|exact Hz2]).
    subst; contradiction.
Qed.

Lemma set_nth_length {X} i (x : X) l : length (set_nth i x l) = length l.
Proof. revert i; induction l as [|y l IH]; intros [|i]; cbn; try reflexivity. rewrite IH; reflexivity. Qed.

Lemma nth_set_nth_same {X} i (x d : X) l : (i < length l)%nat -> nth i (set_nth i x l) d = x.
Proof.
  revert i; induction l as [|y l IH]; intros [|i] H; cbn in *; try lia; [reflexivity|].
  apply IH; lia.
Qed.

Lemma nth_set_nth_other {X} i j (x d : X) l : i <> j -> nth j (set_nth i x l) d = nth j l d.
Proof.
  revert i j; induction l as [|y l IH]; intros [|i] [|j] H; cbn; try reflexivity; try congruence.
  apply IH; congruence.
Qed.

Lemma nth_repeat_lt {X} (x d : X) n i : (i < n)%nat -> nth i (repeat x n) d = x.
Proof. revert i; induction n as [|n IH]; intros [|i] H; cbn; try lia; [reflexivity|apply IH; lia]. Qed.

Lemma repeat_app_nat {X} (x : X) n m : repeat x (n + m) = repeat x n ++ repeat x m.
Proof. apply repeat_app. Qed.

Lemma nth_map_lt {X Y} (f : X -> Y) l j d d' : (j < length l)%nat -> nth j (map f l) d = f (nth j l d').
Proof.
  intros H. rewrite nth_indep with (d' := f d') by (rewrite map_length; exact H). apply map_nth.
Qed.

Section ArrP.
Context {A : AlgOps}.

(** ** Shapes and positions *)

Lemma inb_length sh idx : inb sh idx = true -> length idx = length sh.
Proof.
  revert idx; induction sh as [|d sh IH]; intros [|i idx] H; cbn in *; try discriminate; [reflexivity|].
  apply andb_prop in H as [_ H]; f_equal; apply IH; exact H.
Qed.

Lemma inb_app s1 s2 i1 i2 :
  length i1 = length s1 -> inb (s1 ++ s2) (i1 ++ i2) = inb s1 i1 && inb s2 i2.
Proof.
  revert i1; induction s1 as [|d s1 IH]; intros [|i i1] H; cbn in *; try discriminate; [reflexivity|].
  rewrite IH by lia. rewrite andb_assoc; reflexivity.
Qed.

Lemma inb_cons d sh i idx : inb (d :: sh) (i :: idx) = (i <? d)%nat && inb sh idx.
Proof. reflexivity. Qed.

Lemma inb_cons_true d sh i idx :
  inb (d :: sh) (i :: idx) = true <-> (i < d)%nat /\ inb sh idx = true.
Proof. rewrite inb_cons, andb_true_iff, Nat.ltb_lt; reflexivity. Qed.

Lemma inb_repeat n k idx :
  inb (repeat n k) idx = true <-> length idx = k /\ Forall (fun i => (i < n)%nat) idx.
Proof.
  revert idx; induction k as [|k IH]; intros [|i idx]; cbn [repeat inb length].
  - split; [intros _; split; [reflexivity|constructor]|reflexivity].
  - split; [discriminate|intros [H _]; discriminate].
  - split; [discriminate|intros [H _]; discriminate].
  - rewrite andb_true_iff, Nat.ltb_lt, IH. split.
    + intros (Hi & Hl & Hf); split; [congruence|constructor; assumption].
    + intros (Hl & Hf); inversion Hf as [|i' l' Hi Hf' E]; subst.
      split; [exact Hi|split; [congruence|exact Hf']].
Qed.

Lemma inb_nth sh idx :
  inb sh idx = true <->
  length idx = length sh /\ forall k, (k < length sh)%nat -> (nth k idx 0 < nth k sh 0)%nat.
Proof.
  revert idx; induction sh as [|d sh IH]; intros [|i idx]; cbn [inb length].
  - split; [intros _; split; [reflexivity|intros k Hk; lia]|reflexivity].
  - split; [discriminate|intros [H _]; discriminate].
  - split; [discriminate|intros [H _]; discriminate].
  - rewrite andb_true_iff, Nat.ltb_lt, IH. split.
    + intros (Hi & Hl & Hk); split; [congruence|].
      intros [|k] Hk'; cbn; [exact Hi|apply Hk; lia].
    + intros (Hl & Hk). split; [apply (Hk 0%nat); lia|].
      split; [congruence|]. intros k Hk'; apply (Hk (S k)); lia.
Qed.

Lemma prodn_app s1 s2 : prodn (s1 ++ s2) = (prodn s1 * prodn s2)%nat.
Proof. induction s1 as [|d s1 IH]; cbn; [lia|]. rewrite IH; lia. Qed.

Lemma prodn_repeat n k : prodn (repeat n k) = (n ^ k)%nat.
Proof. induction k as [|k IH]; cbn; [reflexivity|]. rewrite IH; reflexivity. Qed.

Lemma offset_lt sh idx : inb sh idx = true -> (offset sh idx < prodn sh)%nat.
Proof.
  revert idx; induction sh as [|d sh IH]; intros [|i idx] H; cbn in *; try discriminate; [lia|].
  apply andb_prop in H as [Hi H]; apply Nat.ltb_lt in Hi; apply IH in H.
  nia.
Qed.

Lemma offset_app s1 s2 i1 i2 :
  length i1 = length s1 ->
  offset (s1 ++ s2) (i1 ++ i2) = (offset s1 i1 * prodn s2 + offset s2 i2)%nat.
Proof.
  revert i1; induction s1 as [|d s1 IH]; intros [|i i1] H; cbn in *; try discriminate; [reflexivity|].
  rewrite IH by lia. rewrite prodn_app; lia.
Qed.

Lemma all_idx_length sh : length (all_idx sh) = prodn sh.
Proof.
  induction sh as [|d sh IH]; cbn; [reflexivity|].
  rewrite (flat_map_length_const _ _ (prodn sh)).
  - rewrite seq_length; reflexivity.
  - intros i _; rewrite map_length; exact IH.
Qed.

Lemma nth_error_all_idx sh idx :
  inb sh idx = true -> nth_error (all_idx sh) (offset sh idx) = Some idx.
Proof.
  revert idx; induction sh as [|d sh IH]; intros [|i idx] H; cbn in *; try discriminate; [reflexivity|].
  apply andb_prop in H as [Hi H]; apply Nat.ltb_lt in Hi.
  rewrite (nth_error_flat_map_block _ _ (prodn sh) i (offset sh idx) i).
  - apply map_nth_error with (f := cons i). apply IH; exact H.
  - intros j _; rewrite map_length; apply all_idx_length.
  - rewrite nth_error_seq by exact Hi; reflexivity.
  - apply offset_lt; exact H.
Qed.

Lemma in_all_idx sh idx : In idx (all_idx sh) <-> inb sh idx = true.
Proof.
  split.
  - revert idx; induction sh as [|d sh IH]; intros idx H; cbn in H.
    + destruct H as [<-|[]]; reflexivity.
    + apply in_flat_map in H as (i & Hi & H). apply in_seq in Hi.
      apply in_map_iff in H as (idx' & <- & H).
      apply inb_cons_true; split; [lia|apply IH; exact H].
  - intros H; apply nth_error_all_idx in H; eapply nth_error_In; exact H.
Qed.

Lemma NoDup_all_idx sh : NoDup (all_idx sh).
Proof.
  induction sh as [|d sh IH]; cbn; [repeat constructor; intros []|].
  apply NoDup_flat_map.
  - apply seq_NoDup.
  - intros i _. apply FinFun.Injective_map_NoDup; [|exact IH].
    intros x y Hxy; congruence.
  - intros i j z _ _ Hi Hj.
    apply in_map_iff in Hi as (x & <- & _). apply in_map_iff in Hj as (y & Hy & _).
    congruence.
Qed.

Lemma tuples_all_idx n k : tuples n k = all_idx (repeat n k).
Proof. induction k as [|k IH]; cbn; [reflexivity|]. rewrite IH; reflexivity. Qed.

Lemma in_tuples n k ks :
  In ks (tuples n k) <-> length ks = k /\ Forall (fun i => (i < n)%nat) ks.
Proof. rewrite tuples_all_idx, in_all_idx, inb_repeat; reflexivity. Qed.

Lemma NoDup_tuples n k : NoDup (tuples n k).
Proof. rewrite tuples_all_idx; apply NoDup_all_idx. Qed.

(** ** Reading arrays *)

Lemma aget_tab sh f idx : inb sh idx = true -> aget (tab sh f) idx = f idx.
Proof.
  intros H; unfold aget, tab; cbn.
  apply nth_error_nth. apply map_nth_error. apply nth_error_all_idx; exact H.
Qed.

Lemma awf_tab sh f : awf (tab sh f).
Proof. unfold awf, tab; cbn. rewrite map_length; apply all_idx_length. Qed.

Lemma shape_tab sh f : shape (tab sh f) = sh.
Proof. reflexivity. Qed.

Lemma rank_tab sh f : rank (tab sh f) = length sh.
Proof. reflexivity. Qed.

Lemma tab_ext sh f g : (forall idx, inb sh idx = true -> f idx = g idx) -> tab sh f = tab sh g.
Proof.
  intros H; unfold tab; f_equal. apply map_ext_in.
  intros idx Hi; apply H; apply in_all_idx; exact Hi.
Qed.

Lemma offset_nil_r sh : offset sh [] = 0%nat.
Proof. destruct sh; reflexivity. Qed.

Lemma awf_tab_get a : awf a -> tab (shape a) (aget a) = a.
Proof.
  intros H. destruct a as [sh d]; unfold awf in H; cbn in H.
  unfold tab; f_equal. apply nth_ext with (d := k0) (d' := k0).
  - rewrite map_length, all_idx_length; cbn; congruence.
  - cbn. intros i Hi. rewrite map_length, all_idx_length in Hi.
    assert (Hi' : (i < length (all_idx sh))%nat) by (rewrite all_idx_length; exact Hi).
    destruct (nth_error (all_idx sh) i) as [idx|] eqn:E.
    2: { apply nth_error_None in E; lia. }
    rewrite (nth_error_nth _ _ k0 (map_nth_error (aget (mkArr sh d)) _ _ E)).
    assert (Hin : inb sh idx = true) by (apply in_all_idx; eapply nth_error_In; exact E).
    unfold aget; cbn. f_equal.
    assert (E2 := nth_error_all_idx _ _ Hin).
    apply (proj1 (NoDup_nth_error (all_idx sh)) (NoDup_all_idx sh)).
    + rewrite all_idx_length; apply offset_lt; exact Hin.
    + congruence.
Qed.

Lemma arr_ext a b :
  awf a -> awf b -> shape a = shape b ->
  (forall idx, inb (shape a) idx = true -> aget a idx = aget b idx) -> a = b.
Proof.
  intros Ha Hb Hs H.
  rewrite <- (awf_tab_get a Ha), <- (awf_tab_get b Hb), <- Hs.
  apply tab_ext; exact H.
Qed.

Lemma shape_amap f a : shape (amap f a) = shape a.
Proof. reflexivity. Qed.

Lemma awf_amap f a : awf a -> awf (amap f a).
Proof. unfold awf, amap; cbn; rewrite map_length; auto. Qed.

Lemma aget_amap f a idx :
  awf a -> inb (shape a) idx = true -> aget (amap f a) idx = f (aget a idx).
Proof.
  intros Hw H; unfold aget, amap; cbn.
  rewrite <- (map_nth f). apply nth_indep. rewrite map_length, Hw.
  apply offset_lt; exact H.
Qed.

Lemma zipadd_length l l' : length (zipadd l l') = Nat.min (length l) (length l').
Proof. revert l'; induction l as [|x l IH]; intros [|y l']; cbn; try reflexivity. rewrite IH; reflexivity. Qed.

Lemma nth_zipadd l l' i d :
  (i < length l)%nat -> (i < length l')%nat ->
  nth i (zipadd l l') d = nth i l d + nth i l' d.
Proof.
  revert l' i; induction l as [|x l IH]; intros [|y l'] [|i] H1 H2; cbn in *; try lia; [reflexivity|].
  apply IH; lia.
Qed.

Lemma shape_eqb_true s s' : shape_eqb s s' = true <-> s = s'.
Proof.
  revert s'; induction s as [|x s IH]; intros [|y s']; cbn; split; intros H; try discriminate; try reflexivity.
  - apply andb_prop in H as [H1 H2]. apply Nat.eqb_eq in H1. apply IH in H2. congruence.
  - injection H as -> ->. rewrite Nat.eqb_refl; cbn; apply IH; reflexivity.
Qed.

Lemma aadd_ok a b :
  awf a -> awf b -> shape a = shape b ->
  exists c, aadd a b = Ok c /\ awf c /\ shape c = shape a /\
            forall idx, inb (shape a) idx = true -> aget c idx = aget a idx + aget b idx.
Proof.
  intros Ha Hb Hs. unfold aadd.
  rewrite (proj2 (shape_eqb_true _ _) Hs).
  eexists; split; [reflexivity|].
  assert (Hl : length (data b) = prodn (shape a)) by (rewrite Hs; exact Hb).
  split; [|split; [reflexivity|]].
  - unfold awf; cbn. rewrite zipadd_length, Ha, Hl. lia.
  - intros idx Hi. unfold aget; cbn. rewrite nth_zipadd.
    + rewrite Hs; reflexivity.
    + rewrite Ha; apply offset_lt; exact Hi.
    + rewrite Hl; apply offset_lt; exact Hi.
Qed.

Lemma awf_tprod a b : awf a -> awf b -> awf (tprod a b).
Proof.
  unfold awf, tprod; cbn; intros Ha Hb.
  rewrite (flat_map_length_const _ _ (length (data b))).
  - rewrite Ha, Hb, prodn_app; reflexivity.
  - intros x _; apply map_length.
Qed.

Lemma aget_tprod a b i j :
  awf a -> awf b -> inb (shape a) i = true -> inb (shape b) j = true ->
  aget (tprod a b) (i ++ j) = aget a i * aget b j.
Proof.
  intros Ha Hb Hi Hj. unfold aget, tprod; cbn.
  rewrite offset_app by (apply inb_length; exact Hi).
  apply nth_error_nth.
  assert (Li : (offset (shape a) i < length (data a))%nat) by (rewrite Ha; apply offset_lt; exact Hi).
  assert (Lj : (offset (shape b) j < length (data b))%nat) by (rewrite Hb; apply offset_lt; exact Hj).
  rewrite <- Hb.
  rewrite (nth_error_flat_map_block _ _ (length (data b)) _ _ (nth (offset (shape a) i) (data a) k0)).
  - apply map_nth_error. apply nth_error_nth'; exact Lj.
  - intros y _; apply map_length.
  - apply nth_error_nth'; exact Li.
  - exact Lj.
Qed.

Lemma awf_aset a idx x b : aset a idx x = Ok b -> awf a -> awf b.
Proof.
  unfold aset. destruct (inb (shape a) idx); [|discriminate].
  intros H; injection H as <-. unfold awf; cbn. rewrite set_nth_length; auto.
Qed.

Lemma shape_aset a idx x b : aset a idx x = Ok b -> shape b = shape a.
Proof.
  unfold aset. destruct (inb (shape a) idx); [|discriminate].
  intros H; injection H as <-. reflexivity.
Qed.

Lemma offset_inj sh i j :
  inb sh i = true -> inb sh j = true -> offset sh i = offset sh j -> i = j.
Proof.
  intros Hi Hj E. apply nth_error_all_idx in Hi. apply nth_error_all_idx in Hj.
  rewrite E in Hi. congruence.
Qed.

Lemma aget_aset a idx x b j :
  awf a -> aset a idx x = Ok b -> inb (shape a) j = true ->
  aget b j = if shape_eqb j idx then x else aget a j.
Proof.
  unfold aset. intros Hw. destruct (inb (shape a) idx) eqn:Hi; [|discriminate].
  intros H Hj; injection H as <-. unfold aget; cbn.
  destruct (shape_eqb j idx) eqn:E.
  - apply shape_eqb_true in E; subst. apply nth_set_nth_same.
    rewrite Hw; apply offset_lt; exact Hi.
  - apply nth_set_nth_other. intros Ho. apply (offset_inj (shape a)) in Ho; [|exact Hi|exact Hj].
    subst. rewrite (proj2 (shape_eqb_true j j) eq_refl) in E; discriminate.
Qed.

(** ** Equality of arrays *)

Context {L : AlgLaws A}.

Global Instance aeq_equiv : Equivalence aeq.
Proof.
  constructor.
  - intros a; split; [reflexivity|intros; reflexivity].
  - intros a b [Hs H]; split; [congruence|]. intros idx Hi; symmetry; apply H; congruence.
  - intros a b c [Hs H] [Hs' H']; split; [congruence|].
    intros idx Hi; rewrite (H idx Hi); apply H'; congruence.
Qed.

Lemma aeq_amap_simp a : awf a -> aeq (amap simp a) a.
Proof.
  intros Hw; split; [reflexivity|]. intros idx Hi; cbn in Hi.
  rewrite aget_amap by assumption. apply simp_ok.
Qed.

End ArrP.
