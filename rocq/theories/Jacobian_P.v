(** Jacobians (Coordinates.py _calculate_jacobian) and the representations of a metric. *)
From Verif Require Import Alg Alg_P Arr Arr_P Arr2_P UtilsM Utils_P Spec Act_P TensorM RL_P Jac_P Tensor_P.
From Coq Require Import Permutation.
Local Open Scope K_scope.

Lemma rfold_nested {X Y C} (g : X -> C -> Y -> res C) (h : X -> list Y) l a :
  rfold (fun acc x => rfold (g x) (h x) acc) l a =
  rfold (fun acc p => g (fst p) acc (snd p)) (flat_map (fun x => map (pair x) (h x)) l) a.
Proof.
  revert a; induction l as [|x l IH]; intros a; [reflexivity|]. cbn [rfold flat_map].
  assert (G : forall ys b (k : list (X * Y)), rfold (fun acc p => g (fst p) acc (snd p)) (map (pair x) ys ++ k) b =
     do c <- rfold (g x) ys b; rfold (fun acc p => g (fst p) acc (snd p)) k c).
  { induction ys as [|y ys IHy]; intros b k; [reflexivity|]. cbn [map app rfold fst snd].
    destruct (g x b y) as [c|e]; cbn [rbind]; [apply IHy|reflexivity]. }
  rewrite G. destruct (rfold (g x) (h x) a) as [c|e]; cbn [rbind]; [apply IH|reflexivity].
Qed.

Lemma rfold_map {X Y C} (f : C -> Y -> res C) (h : X -> Y) l a :
  rfold f (map h l) a = rfold (fun acc x => f acc (h x)) l a.
Proof.
  revert a; induction l as [|x l IH]; intros a; [reflexivity|]. cbn [map rfold].
  destruct (f a (h x)) as [c|e]; cbn [rbind]; [apply IH|reflexivity].
Qed.

Lemma rfold_id {X C} l (a : C) : rfold (fun acc (_ : X) => Ok acc) l a = Ok a.
Proof. induction l as [|x l IH]; [reflexivity|]. exact IH. Qed.

Lemma combine_seq_map {X} (l : list X) d : combine (seq 0 (length l)) l = map (fun i => (i, nth i l d)) (seq 0 (length l)).
Proof.
  assert (G : forall s, combine (seq s (length l)) l = map (fun i => (i, nth (i - s) l d)) (seq s (length l))).
  { induction l as [|x l IH]; intros s; [reflexivity|]. cbn [length seq combine map]. rewrite Nat.sub_diag. cbn [nth]. f_equal.
    rewrite IH. apply map_ext_in. intros i Hi. apply in_seq in Hi. replace (i - s)%nat with (S (i - S s)) by lia. reflexivity. }
  rewrite G. apply map_ext. intros i. rewrite Nat.sub_0_r. reflexivity.
Qed.

Section JacobianP.
Context {A : AlgOps} {L : AlgLaws A}.
Add Ring Kring : kring (setoid keq_equiv kring_ext).

Lemma zero_tensor_ok' n r : (1 <= n)%nat ->
  exists z, zero_tensor (Z.of_nat n) (Z.of_nat (S r)) = Ok z /\ awf z /\ shape z = repeat n (S r) /\
    forall idx, inb (repeat n (S r)) idx = true -> aget z idx = k0.
Proof.
  intros Hn. destruct (zero_tensor_ok n (S r) Hn) as (z & Ez & H). exists z. split; [|exact H].
  rewrite <- Ez. rewrite repeat_length. reflexivity.
Qed.

(** Entry of the Jacobian for a rule of the row. *)
Definition jac_entry (other : list string) (o : option rule) (i j : nat) : K :=
  match o with
  | None => kdelta i j
  | Some r => kdiff (nth j other ""%string) (snd r)
  end.

Lemma diff_at_ok (other : list string) j e : (j < length other)%nat -> diff_at other j e = Ok (kdiff (nth j other ""%string) e).
Proof.
  intros H. unfold diff_at. rewrite (nth_error_nth' other ""%string H). reflexivity.
Qed.

Lemma jacobian_of_spec n other ors :
  (1 <= n)%nat -> length other = n -> length ors = n ->
  exists J, jacobian_of other ors = Ok J /\ square n J /\
    forall i j, (i < n)%nat -> (j < n)%nat -> aget J [i; j] = jac_entry other (nth i ors None) i j.
Proof.
  intros Hn Ho Hl. unfold jacobian_of. rewrite Hl.
  destruct (zero_tensor_ok' n 1 Hn) as (z & Ez & Wz & Sz & Gz).
  change (Z.of_nat 2) with 2%Z in Ez. rewrite Ez. cbn [rbind].
  set (F := fun idx => match idx with
                       | [i; j] => match nth i ors None with None => k1 | Some r => kdiff (nth j other ""%string) (snd r) end
                       | _ => k0 end).
  set (T := fun i j : nat => match nth i ors None with None => [i; i] | Some _ => [i; j] end).
  set (cells := flat_map (fun i => map (T i) (seq 0 n)) (seq 0 n)).
  assert (E : rfold (fun acc io => rfold (fun acc j => match snd io with
                 | None => aset acc [fst io; fst io] k1
                 | Some r => do d <- diff_at other j (snd r); aset acc [fst io; j] d
                 end) (seq 0 n) acc) (combine (seq 0 n) ors) z
     = rfold (fun r p => aset r (fst p) (snd p)) (map (fun idx => (idx, F idx)) cells) z).
  { replace (combine (seq 0 n) ors) with (map (fun i => (i, nth i ors None)) (seq 0 n))
      by (rewrite <- Hl; symmetry; apply combine_seq_map).
    rewrite !rfold_map. cbn [fst snd]. unfold cells.
    rewrite (rfold_nested (fun i acc j => match nth i ors None with
                 | None => aset acc [i; i] k1
                 | Some r => do d <- diff_at other j (snd r); aset acc [i; j] d
                 end) (fun _ => seq 0 n)).
    assert (Ec : flat_map (fun i => map (T i) (seq 0 n)) (seq 0 n) =
                 map (fun p => T (fst p) (snd p)) (flat_map (fun i : nat => map (pair i) (seq 0 n)) (seq 0 n))).
    { rewrite !flat_map_concat_map, concat_map, map_map. f_equal. apply map_ext. intros i. rewrite map_map. reflexivity. }
    rewrite Ec, rfold_map. apply rfold_ext. intros acc p Hp.
    apply in_flat_map in Hp as (i & Hi & Hp). apply in_map_iff in Hp as (j & <- & Hj).
    apply in_seq in Hi, Hj. cbn [fst snd]. unfold T, F.
    destruct (nth i ors None) as [r|] eqn:Er.
    - rewrite diff_at_ok by lia. cbn [rbind]. rewrite Er. reflexivity.
    - rewrite Er. reflexivity. }
  cbn [fst snd] in E. rewrite E.
  destruct (rfold_aset_map F cells z (repeat n 2) Wz Sz) as (J & EJ & WJ & SJ & GJ).
  { intros idx Hidx. unfold cells in Hidx. apply in_flat_map in Hidx as (i & Hi & Hidx).
    apply in_map_iff in Hidx as (j & <- & Hj). apply in_seq in Hi, Hj. apply inb_rng. unfold T.
    destruct (nth i ors None); (split; [reflexivity|repeat constructor; lia]). }
  exists J. split; [exact EJ|]. split; [split; [exact WJ|exact SJ]|]. intros i j Hi Hj.
  assert (Hin : inb (repeat n 2) [i; j] = true) by (apply inb_rng; split; [reflexivity|repeat constructor; lia]).
  rewrite GJ by exact Hin. rewrite Gz by exact Hin. unfold jac_entry.
  destruct (existsb (shape_eqb [i; j]) cells) eqn:Ex.
  - apply existsb_exists in Ex as (c & Hc & Heq). apply shape_eqb_true in Heq. subst c.
    unfold cells in Hc. apply in_flat_map in Hc as (i' & Hi' & Hc). apply in_map_iff in Hc as (j' & Hc & Hj').
    unfold F. unfold T in Hc. destruct (nth i' ors None) as [r|] eqn:Er; injection Hc as H1 H2; subst; rewrite Er.
    + reflexivity.
    + rewrite kdelta_same. reflexivity.
  - destruct (nth i ors None) as [r|] eqn:Er.
    + exfalso. rewrite <- not_true_iff_false in Ex. apply Ex. apply existsb_exists. exists [i; j].
      split; [|apply shape_eqb_true; reflexivity]. unfold cells. apply in_flat_map. exists i.
      split; [apply in_seq; lia|]. apply in_map_iff. exists j. split; [unfold T; rewrite Er; reflexivity|apply in_seq; lia].
    + rewrite kdelta_diff; [reflexivity|]. intros ->. rewrite <- not_true_iff_false in Ex. apply Ex.
      apply existsb_exists. exists [j; j]. split; [|apply shape_eqb_true; reflexivity]. unfold cells. apply in_flat_map. exists j.
      split; [apply in_seq; lia|]. apply in_map_iff. exists j. split; [unfold T; rewrite Er; reflexivity|apply in_seq; lia].
Qed.

Definition chr_entry (other : list string) (o : option rule) (j k : nat) : K :=
  match o with
  | None => k0
  | Some r => kdiff (nth k other ""%string) (kdiff (nth j other ""%string) (snd r))
  end.

Lemma chr_jacobian_of_spec n other ors :
  (1 <= n)%nat -> length other = n -> length ors = n ->
  exists C, chr_jacobian_of other ors = Ok C /\ awf C /\ shape C = [n; n; n] /\
    forall i j k, (i < n)%nat -> (j < n)%nat -> (k < n)%nat ->
      aget C [i; j; k] = chr_entry other (nth i ors None) j k.
Proof.
  intros Hn Ho Hl. unfold chr_jacobian_of. rewrite Hl.
  destruct (zero_tensor_ok' n 2 Hn) as (z & Ez & Wz & Sz & Gz).
  change (Z.of_nat 3) with 3%Z in Ez. rewrite Ez. cbn [rbind].
  set (F := fun idx => match idx with [i; j; k] => chr_entry other (nth i ors None) j k | _ => k0 end).
  set (rows := filter (fun i => match nth i ors None with None => false | Some _ => true end) (seq 0 n)).
  set (cells := flat_map (fun i => map (fun jk => [i; fst jk; snd jk]) (flat_map (fun j : nat => map (pair j) (seq 0 n)) (seq 0 n))) rows).
  assert (E : rfold (fun acc io => rfold (fun acc j => rfold (fun acc k => match snd io with
                 | None => Ok acc
                 | Some r => do d <- diff_at other j (snd r); do d <- diff_at other k d; aset acc [fst io; j; k] d
                 end) (seq 0 n) acc) (seq 0 n) acc) (combine (seq 0 n) ors) z
     = rfold (fun r p => aset r (fst p) (snd p)) (map (fun idx => (idx, F idx)) cells) z).
  { replace (combine (seq 0 n) ors) with (map (fun i => (i, nth i ors None)) (seq 0 n))
      by (rewrite <- Hl; symmetry; apply combine_seq_map).
    rewrite !rfold_map. cbn [fst snd]. unfold cells.
    transitivity (rfold (fun acc i => rfold (fun acc jk => aset acc [i; fst jk; snd jk] (F [i; fst jk; snd jk]))
                     (flat_map (fun j : nat => map (pair j) (seq 0 n)) (seq 0 n)) acc) rows z).
    - unfold rows.
      assert (G : forall l a, (forall i, In i l -> (i < n)%nat) ->
        rfold (fun acc i => rfold (fun acc j => rfold (fun acc k => match nth i ors None with
                 | None => Ok acc
                 | Some r => do d <- diff_at other j (snd r); do d <- diff_at other k d; aset acc [i; j; k] d
                 end) (seq 0 n) acc) (seq 0 n) acc) l a
        = rfold (fun acc i => rfold (fun acc jk => aset acc [i; fst jk; snd jk] (F [i; fst jk; snd jk]))
                     (flat_map (fun j : nat => map (pair j) (seq 0 n)) (seq 0 n)) acc)
             (filter (fun i => match nth i ors None with None => false | Some _ => true end) l) a);
        [|apply G; intros i Hi; apply in_seq in Hi; lia].
      induction l as [|i l IH]; intros a Hsub; [reflexivity|].
      cbn [filter rfold]. destruct (nth i ors None) as [r|] eqn:Er.
      + cbn [rfold].
        assert (E1 : rfold (fun acc j => rfold (fun acc k => do d <- diff_at other j (snd r); do d <- diff_at other k d; aset acc [i; j; k] d) (seq 0 n) acc) (seq 0 n) a
                   = rfold (fun acc jk => aset acc [i; fst jk; snd jk] (F [i; fst jk; snd jk])) (flat_map (fun j : nat => map (pair j) (seq 0 n)) (seq 0 n)) a).
        { rewrite (rfold_nested (fun j acc k => do d <- diff_at other j (snd r); do d <- diff_at other k d; aset acc [i; j; k] d) (fun _ => seq 0 n)).
          apply rfold_ext. intros acc p Hp. apply in_flat_map in Hp as (j & Hj & Hp). apply in_map_iff in Hp as (k & <- & Hk).
          apply in_seq in Hj, Hk. cbn [fst snd]. rewrite diff_at_ok by lia. cbn [rbind]. rewrite diff_at_ok by lia. cbn [rbind].
          unfold F, chr_entry. rewrite Er. reflexivity. }
        rewrite E1. match goal with |- rbind ?x _ = _ => destruct x as [b|e] end; cbn [rbind]; [|reflexivity].
        apply IH. intros i' Hi'; apply Hsub; right; exact Hi'.
      + rewrite (rfold_ext _ (fun acc _ => Ok acc) (seq 0 n) a).
        * rewrite rfold_id. cbn [rbind]. apply IH. intros i' Hi'; apply Hsub; right; exact Hi'.
        * intros acc j _. apply rfold_id.
    - rewrite (rfold_nested (fun i acc jk => aset acc [i; fst jk; snd jk] (F [i; fst jk; snd jk]))
                  (fun _ => flat_map (fun j : nat => map (pair j) (seq 0 n)) (seq 0 n))).
      assert (Ec : flat_map (fun i => map (fun jk : nat * nat => [i; fst jk; snd jk]) (flat_map (fun j : nat => map (pair j) (seq 0 n)) (seq 0 n))) rows
                 = map (fun p : nat * (nat * nat) => [fst p; fst (snd p); snd (snd p)])
                     (flat_map (fun i : nat => map (pair i) (flat_map (fun j : nat => map (pair j) (seq 0 n)) (seq 0 n))) rows)).
      { rewrite !(flat_map_concat_map _ rows), concat_map, map_map. f_equal. apply map_ext. intros i. rewrite map_map. reflexivity. }
      rewrite Ec, rfold_map. reflexivity. }
  cbn [fst snd] in E. rewrite E.
  assert (Hcell : forall i j k, In [i; j; k] cells <-> (i < n)%nat /\ (j < n)%nat /\ (k < n)%nat /\ nth i ors None <> None).
  { intros i j k. unfold cells. rewrite in_flat_map. split.
    - intros (i' & Hi' & Hc). apply in_map_iff in Hc as ([j' k'] & Hc & Hjk). cbn in Hc. injection Hc as -> -> ->.
      apply in_flat_map in Hjk as (j' & Hj & Hk). apply in_map_iff in Hk as (k' & Hk & Hk'). injection Hk as -> ->.
      apply filter_In in Hi' as [Hi' Hs]. apply in_seq in Hi', Hj, Hk'. destruct (nth i ors None); [|discriminate].
      repeat split; try lia. discriminate.
    - intros (Hi & Hj & Hk & Hs). exists i. split.
      + apply filter_In. split; [apply in_seq; lia|]. destruct (nth i ors None); [reflexivity|congruence].
      + apply in_map_iff. exists (j, k). split; [reflexivity|]. apply in_flat_map. exists j. split; [apply in_seq; lia|].
        apply in_map_iff. exists k. split; [reflexivity|apply in_seq; lia]. }
  assert (Hform : forall c, In c cells -> exists i j k, c = [i; j; k]).
  { intros c Hc. unfold cells in Hc. apply in_flat_map in Hc as (i & _ & Hc). apply in_map_iff in Hc as ([j k] & <- & _).
    exists i, j, k. reflexivity. }
  destruct (rfold_aset_map F cells z (repeat n 3) Wz Sz) as (C & EC & WC & SC & GC).
  { intros c Hc. destruct (Hform c Hc) as (i & j & k & ->). apply Hcell in Hc. apply inb_rng. split; [reflexivity|repeat constructor; lia]. }
  exists C. split; [exact EC|]. split; [exact WC|]. split; [exact SC|]. intros i j k Hi Hj Hk.
  assert (Hin : inb (repeat n 3) [i; j; k] = true) by (apply inb_rng; split; [reflexivity|repeat constructor; lia]).
  rewrite GC by exact Hin. rewrite Gz by exact Hin.
  destruct (existsb (shape_eqb [i; j; k]) cells) eqn:Ex; [reflexivity|].
  unfold chr_entry. destruct (nth i ors None) as [r|] eqn:Er; [|reflexivity].
  exfalso. rewrite <- not_true_iff_false in Ex. apply Ex. apply existsb_exists. exists [i; j; k].
  split; [|apply shape_eqb_true; reflexivity]. apply Hcell. rewrite Er. repeat split; (assumption || discriminate).
Qed.

(** ** Inverse matrices *)

Lemma mat_at_aget n (m : arr) i j : shape m = [n; n] -> mat_at n (data m) i j = mfun m i j.
Proof. intros H. unfold mat_at, mfun, aget. rewrite H. cbn [offset prodn]. f_equal. lia. Qed.

Lemma ainv_spec {IL : InvLaws A} n m mi :
  square n m -> ainv m = Ok mi -> square n mi /\ inverse_fun n (mfun m) (mfun mi).
Proof.
  intros [Hw Hs] H. unfold ainv in H. rewrite Hs, Nat.eqb_refl in H.
  destruct (minv n (data m)) as [d|] eqn:E; [|discriminate]. injection H as <-.
  assert (Hl : length (data m) = (n * n)%nat) by (rewrite Hw, Hs; cbn; lia).
  assert (Hsq : square n (mkArr [n; n] d)).
  { split; [|reflexivity]. unfold awf. cbn. rewrite (minv_len n _ _ Hl E). lia. }
  split; [exact Hsq|]. split; intros i j Hi Hj.
  - rewrite <- (minv_r n _ _ Hl E i j Hi Hj). apply nsum_ext. intros k _.
    rewrite !(mat_at_aget n m) by exact Hs. change d with (data (mkArr [n; n] d)) at 2. rewrite (mat_at_aget n) by reflexivity. reflexivity.
  - rewrite <- (minv_l n _ _ Hl E i j Hi Hj). apply nsum_ext. intros k _.
    rewrite !(mat_at_aget n m) by exact Hs. change d with (data (mkArr [n; n] d)) at 2. rewrite (mat_at_aget n) by reflexivity. reflexivity.
Qed.

Lemma square_amap n (f : K -> K) m : square n m -> square n (amap f m).
Proof. intros [H1 H2]. split; [apply awf_amap; exact H1|exact H2]. Qed.

Lemma mfun_amap_simp n m : square n m -> meq n (mfun (amap simp m)) (mfun m).
Proof.
  intros H i j Hi Hj. unfold mfun. rewrite aget_amap; [apply simp_ok|apply H|apply (square_in n); assumption].
Qed.

(** ** Rules by coordinate *)

Lemma filter_rule_nodup (rules : list rule) c :
  NoDup (map fst rules) ->
  filter (fun r => String.eqb (fst r) c) rules =
  match dget String.eqb c rules with Some e => [(c, e)] | None => [] end.
Proof.
  induction rules as [|[s e] rules IH]; intros Hd; [reflexivity|]. cbn [map] in Hd. inversion Hd as [|s' l Hn Hd' E]; subst.
  cbn [filter dget fst]. rewrite (String.eqb_sym c s). destruct (String.eqb_spec s c) as [->|Hne].
  - f_equal. rewrite IH by exact Hd'. destruct (dget String.eqb c rules) as [e'|] eqn:E; [|reflexivity].
    exfalso. apply Hn. clear - E. induction rules as [|[s x] rules IH]; [discriminate|]. cbn in E |- *.
    destruct (String.eqb_spec c s) as [->|]; [left; reflexivity|right; apply IH; exact E].
  - apply IH; exact Hd'.
Qed.

Lemma ordered_rules_nodup coords (rules : list rule) :
  NoDup (map fst rules) ->
  ordered_rules coords rules = map (fun c => option_map (fun e => (c, e)) (dget String.eqb c rules)) coords.
Proof.
  intros Hd. unfold ordered_rules. induction coords as [|c coords IH]; [reflexivity|].
  cbn [flat_map]. rewrite map_cons. rewrite IH, (filter_rule_nodup rules c Hd).
  destruct (dget String.eqb c rules); reflexivity.
Qed.

Lemma calculate_jacobian_spec {DL : DiffLaws A} {IL : InvLaws A} n self other rules :
  (1 <= n)%nat -> length self = n -> length other = n -> NoDup (map fst rules) ->
  forall J Ji C, calculate_jacobian self other rules = Ok (J, Ji, C) ->
  square n J /\ square n Ji /\ awf C /\ shape C = [n; n; n] /\
  inverse_fun n (mfun J) (mfun Ji) /\
  (forall i j, (i < n)%nat -> (j < n)%nat ->
     aget J [i; j] == match dget String.eqb (nth i self ""%string) rules with
                      | Some e => kdiff (nth j other ""%string) e
                      | None => kdelta i j
                      end) /\
  (forall i j k, (i < n)%nat -> (j < n)%nat -> (k < n)%nat ->
     aget C [i; j; k] == match dget String.eqb (nth i self ""%string) rules with
                         | Some e => kdiff (nth k other ""%string) (kdiff (nth j other ""%string) e)
                         | None => k0
                         end) /\
  (forall i j k, (i < n)%nat -> (j < n)%nat -> (k < n)%nat -> aget C [i; j; k] == aget C [i; k; j]).
Proof.
  intros Hn Hs Ho Hd J Ji C H. unfold calculate_jacobian in H.
  rewrite (ordered_rules_nodup self rules Hd) in H.
  set (ors := map (fun c => option_map (fun e => (c, e)) (dget String.eqb c rules)) self) in *.
  assert (Hlo : length ors = n) by (unfold ors; rewrite map_length; exact Hs).
  assert (Hno : forall i, (i < n)%nat -> nth i ors None = option_map (fun e => (nth i self ""%string, e)) (dget String.eqb (nth i self ""%string) rules)).
  { intros i Hi. unfold ors. rewrite nth_map_lt with (d' := ""%string) by lia. reflexivity. }
  destruct (jacobian_of_spec n other ors Hn Ho Hlo) as (J0 & EJ & SqJ & GJ).
  destruct (chr_jacobian_of_spec n other ors Hn Ho Hlo) as (C0 & EC & WC & SC & GC).
  rewrite EJ, EC in H. cbn [rbind] in H.
  destruct (ainv (amap simp J0)) as [ji|e] eqn:Ei; [|discriminate]. cbn [rbind] in H. injection H as <- <- <-.
  destruct (ainv_spec n _ _ (square_amap n simp J0 SqJ) Ei) as [Sqi Hinv].
  split; [apply square_amap; exact SqJ|]. split; [apply square_amap; exact Sqi|].
  split; [apply awf_amap; exact WC|]. split; [exact SC|]. split.
  { eapply inverse_ext; [apply meq_refl| |exact Hinv]. apply meq_sym, mfun_amap_simp; exact Sqi. }
  assert (HC : forall i j k, (i < n)%nat -> (j < n)%nat -> (k < n)%nat ->
     aget (amap simp C0) [i; j; k] == match dget String.eqb (nth i self ""%string) rules with
                         | Some e => kdiff (nth k other ""%string) (kdiff (nth j other ""%string) e)
                         | None => k0
                         end).
  { intros i j k Hi Hj Hk. rewrite aget_amap; [|exact WC|].
    - rewrite simp_ok, GC by assumption. rewrite Hno by exact Hi. unfold chr_entry.
      destruct (dget String.eqb (nth i self ""%string) rules); reflexivity.
    - rewrite SC. apply (inb_rng n 3). split; [reflexivity|repeat constructor; lia]. }
  split; [|split; [exact HC|]].
  - intros i j Hi Hj. rewrite aget_amap; [|apply SqJ|apply (square_in n); assumption].
    rewrite simp_ok, GJ by assumption. rewrite Hno by exact Hi. unfold jac_entry.
    destruct (dget String.eqb (nth i self ""%string) rules); reflexivity.
  - intros i j k Hi Hj Hk. rewrite !HC by assumption. destruct (dget String.eqb (nth i self ""%string) rules); [apply kdiff_comm|reflexivity].
Qed.

(** The only way to fail is a Jacobian that SymPy cannot invert. *)
Lemma calculate_jacobian_fails n self other rules :
  (1 <= n)%nat -> length self = n -> length other = n -> NoDup (map fst rules) ->
  (exists r, calculate_jacobian self other rules = Ok r) \/ calculate_jacobian self other rules = Err ESymPy.
Proof.
  intros Hn Hs Ho Hd. unfold calculate_jacobian. rewrite (ordered_rules_nodup self rules Hd).
  set (ors := map (fun c => option_map (fun e => (c, e)) (dget String.eqb c rules)) self).
  assert (Hlo : length ors = n) by (unfold ors; rewrite map_length; exact Hs).
  destruct (jacobian_of_spec n other ors Hn Ho Hlo) as (J0 & EJ & SqJ & GJ).
  destruct (chr_jacobian_of_spec n other ors Hn Ho Hlo) as (C0 & EC & WC & SC & GC).
  rewrite EJ, EC. cbn [rbind]. unfold ainv. rewrite (proj2 (square_amap n simp J0 SqJ)), Nat.eqb_refl.
  destruct (minv n _) as [d|]; cbn [rbind]; [left; eexists; reflexivity|right; reflexivity].
Qed.

(** ** Metric *)


Lemma tcontract13 n x y :
  square n x -> square n y ->
  exists m, tcontract (tprod x y) [(1, 3)]%nat = Ok m /\ square n m /\
    meq n (mfun m) (mcomp n (mfun x) (mtr (mfun y))).
Proof.
  intros [Wx Sx] [Wy Sy]. assert (St : shape (tprod x y) = [n; n; n; n]) by (cbn; rewrite Sx, Sy; reflexivity).
  unfold tcontract, rank. rewrite St.
  assert (Hok : tcontract_ok [n; n; n; n] [(1, 3)]%nat = true) by (unfold tcontract_ok; cbn; rewrite Nat.eqb_refl; reflexivity).
  rewrite Hok. eexists. split; [reflexivity|]. split; [split; [apply awf_tab|reflexivity]|].
  intros i j Hi Hj. unfold mfun at 1. rewrite aget_tab by (apply (inb_rng n 2); split; [reflexivity|repeat constructor; lia]).
  change (map (fun p : nat * nat => nth (fst p) [n; n; n; n] 0%nat) [(1, 3)]%nat) with (repeat n 1).
  rewrite <- tuples_all_idx, lsum_tuples_1. apply nsum_ext. intros k Hk.
  change (fill (seq 0 (length [n; n; n; n])) [(1, 3)]%nat [k] [i; j]) with ([i; k] ++ [j; k]).
  rewrite aget_tprod; [reflexivity|exact Wx|exact Wy|apply (square_in n); (split || idtac); assumption|apply (square_in n); (split || idtac); assumption].
Qed.

Lemma tcontract02 n x y :
  square n x -> square n y ->
  exists m, tcontract (tprod x y) [(0, 2)]%nat = Ok m /\ square n m /\
    meq n (mfun m) (mcomp n (mtr (mfun x)) (mfun y)).
Proof.
  intros [Wx Sx] [Wy Sy]. assert (St : shape (tprod x y) = [n; n; n; n]) by (cbn; rewrite Sx, Sy; reflexivity).
  unfold tcontract, rank. rewrite St.
  assert (Hok : tcontract_ok [n; n; n; n] [(0, 2)]%nat = true) by (unfold tcontract_ok; cbn; rewrite Nat.eqb_refl; reflexivity).
  rewrite Hok. eexists. split; [reflexivity|]. split; [split; [apply awf_tab|reflexivity]|].
  intros i j Hi Hj. unfold mfun at 1. rewrite aget_tab by (apply (inb_rng n 2); split; [reflexivity|repeat constructor; lia]).
  change (map (fun p : nat * nat => nth (fst p) [n; n; n; n] 0%nat) [(0, 2)]%nat) with (repeat n 1).
  rewrite <- tuples_all_idx, lsum_tuples_1. apply nsum_ext. intros k Hk.
  change (fill (seq 0 (length [n; n; n; n])) [(0, 2)]%nat [k] [i; j]) with ([k; i] ++ [k; j]).
  rewrite aget_tprod; [reflexivity|exact Wx|exact Wy|apply (square_in n); (split || idtac); assumption|apply (square_in n); (split || idtac); assumption].
Qed.

Lemma hd_square n (m : arr) : square n m -> hd 0%nat (shape m) = n.
Proof. intros [_ H]. rewrite H. reflexivity. Qed.

(** A new metric. *)
Lemma metric_representations_spec {IL : InvLaws A} n indices g d :
  square n g -> indices = [-1; -1]%Z \/ indices = [1; 1]%Z ->
  metric_representations indices g = Ok d ->
  dget cfg_eqb indices d = Some g /\
  dget cfg_eqb [1; -1]%Z d = Some (eye n) /\ dget cfg_eqb [-1; 1]%Z d = Some (eye n) /\
  exists gi, dget cfg_eqb (map Z.opp indices) d = Some gi /\ ainv g = Ok gi /\ square n gi /\ inverse_fun n (mfun g) (mfun gi).
Proof.
  intros Hg Hi H. unfold metric_representations in H. rewrite (hd_square n g Hg) in H.
  destruct (ainv g) as [gi|e] eqn:Ei; [|discriminate]. cbn [rbind] in H. injection H as <-.
  destruct (ainv_spec n g gi Hg Ei) as [H1 H2].
  destruct Hi as [-> | ->]; cbn; repeat (split; [reflexivity|]); exists gi; auto.
Qed.

(** After the first transformation in the default configuration. *)
Lemma metric_fill_spec {IL : InvLaws A} n indices t d :
  square n t -> symmetric_fun n (mfun t) -> indices = [-1; -1]%Z \/ indices = [1; 1]%Z ->
  metric_fill indices indices [(indices, t)] = (d, Ok tt) ->
  dget cfg_eqb indices d = Some t /\
  (exists ti, dget cfg_eqb (map Z.opp indices) d = Some ti /\ square n ti /\ inverse_fun n (mfun t) (mfun ti)) /\
  (exists m, dget cfg_eqb [1; -1]%Z d = Some m /\ square n m /\ meq n (mfun m) kdelta) /\
  (exists m, dget cfg_eqb [-1; 1]%Z d = Some m /\ square n m /\ meq n (mfun m) kdelta).
Proof.
  intros Ht Hsym Hi H. unfold metric_fill in H.
  assert (Eg : dget cfg_eqb indices [(indices, t)] = Some t) by (destruct Hi as [-> | ->]; reflexivity).
  rewrite Eg in H. destruct (ainv t) as [ti|e] eqn:Ei; [|discriminate].
  destruct (ainv_spec n t ti Ht Ei) as [Hti Hinv].
  assert (Hti_sym : symmetric_fun n (mfun ti)).
  { assert (Hinv' := inverse_tr n _ _ Hinv). apply inverse_fun_meq in Hinv as [I1 I2]. apply inverse_fun_meq in Hinv' as [T1 T2].
    apply (inverse_unique n (mfun t)); [exact I2|]. eapply meq_trans; [|exact T1]. apply mcomp_ext; [exact Hsym|apply meq_refl]. }
  destruct (tcontract13 n ti t Hti Ht) as (m1 & E1 & Sq1 & G1).
  destruct (tcontract02 n ti t Hti Ht) as (m2 & E2 & Sq2 & G2).
  apply inverse_fun_meq in Hinv as [I1 I2].
  assert (D1 : meq n (mfun m1) kdelta).
  { eapply meq_trans; [exact G1|]. eapply meq_trans; [apply mcomp_ext; [apply meq_refl|apply meq_sym; exact Hsym]|]. exact I2. }
  assert (D2 : meq n (mfun m2) kdelta).
  { eapply meq_trans; [exact G2|]. eapply meq_trans; [apply mcomp_ext; [apply meq_sym; exact Hti_sym|apply meq_refl]|]. exact I2. }
  assert (Hinv : inverse_fun n (mfun t) (mfun ti)) by (apply inverse_fun_meq; split; assumption).
  destruct Hi as [-> | ->]; cbn in H; rewrite E1 in H; cbn in H; rewrite E2 in H; cbn in H; injection H as <-; cbn;
    (split; [reflexivity|]); (split; [exists ti; auto|]); (split; eexists; (split; [reflexivity|]); auto).
Qed.

Lemma transform_symmetric {SL : SubsLaws A} n J Jinv rules g g' indices :
  square n g -> square n J -> square n Jinv -> symmetric_fun n (mfun g) -> indices = [-1; -1]%Z \/ indices = [1; 1]%Z ->
  transform J Jinv rules 2 indices g = Ok g' -> square n g' /\ symmetric_fun n (mfun g').
Proof.
  intros Hg HJ HJi Hsym Hi E. destruct (proj1 (square_cubic n g) Hg) as [Hc Hr].
  assert (Hv : valid_cfg indices) by (destruct Hi as [-> | ->]; repeat constructor; auto).
  destruct (transform_hom n J Jinv rules indices g Hc HJ HJi Hv) as (g'' & E' & W & S & _ & G).
  { rewrite Hr. destruct Hi as [-> | ->]; reflexivity. }
  rewrite Hr in E'. assert (g'' = g') by congruence. subst g''. split; [split; [exact W|rewrite S; apply Hg]|].
  intros i j Hi' Hj'. unfold mtr, mfun. rewrite !G by (apply (square_in n); assumption).
  assert (Hidx : exists M, map (jac (hmat (subs_seq rules) (mfun J)) (hmat (subs_seq rules) (mfun Jinv))) indices = [M; M]).
  { destruct Hi as [-> | ->]; eexists; reflexivity. }
  destruct Hidx as [M ->]. rewrite !act2. rewrite nsum_swap. apply nsum_ext. intros l Hl. apply nsum_ext. intros k Hk.
  rewrite (hom_proper _ (hom_subs_seq rules) _ _ (Hsym k l Hk Hl)). unfold mtr, mfun. ring.
Qed.

Lemma transformed_metric_spec {IL : InvLaws A} {SL : SubsLaws A} n J Jinv rules g t indices d :
  square n g -> square n J -> square n Jinv -> symmetric_fun n (mfun g) -> indices = [-1; -1]%Z \/ indices = [1; 1]%Z ->
  transform J Jinv rules 2 indices g = Ok t ->
  metric_fill indices indices [(indices, t)] = (d, Ok tt) ->
  dget cfg_eqb indices d = Some t /\ symmetric_fun n (mfun t) /\
  (exists ti, dget cfg_eqb (map Z.opp indices) d = Some ti /\ square n ti /\ inverse_fun n (mfun t) (mfun ti)) /\
  (exists m, dget cfg_eqb [1; -1]%Z d = Some m /\ square n m /\
     forall i j, (i < n)%nat -> (j < n)%nat -> aget m [i; j] == kdelta i j) /\
  (exists m, dget cfg_eqb [-1; 1]%Z d = Some m /\ square n m /\
     forall i j, (i < n)%nat -> (j < n)%nat -> aget m [i; j] == kdelta i j).
Proof.
  intros Hg HJ HJi Hs Hi Et Ef.
  destruct (transform_symmetric n J Jinv rules g t indices Hg HJ HJi Hs Hi Et) as [St Sy].
  destruct (metric_fill_spec n indices t d St Sy Hi Ef) as (H1 & H2 & H3 & H4).
  split; [exact H1|]. split; [exact Sy|]. split; [exact H2|]. split; assumption.
Qed.

End JacobianP.
