(** Proofs about substitutions in components. *)
From Coq Require Import String Permutation.
From Verif Require Import Alg Alg_P Arr Arr_P Arr2_P UtilsM Utils_P Spec Act_P TensorM RL_P Jac_P Tensor_P Jacobian_P Chr_P Subs_P Geod4_P CurveM SpecCurve.
Import List.
Local Open Scope K_scope.

(** ** Dictionaries and their order *)

Section Dict.
Context {A : AlgOps}.

Lemma key_eqb_spec k k' : reflect (k = k') (key_eqb k k').
Proof.
  destruct k as [b|s|s n], k' as [b'|s'|s' n']; cbn; try (constructor; congruence).
  - destruct b, b'; constructor; congruence.
  - destruct (String.eqb_spec s s'); constructor; congruence.
  - destruct (String.eqb_spec s s'); cbn; [|constructor; congruence]. destruct (Nat.eqb_spec n n'); constructor; congruence.
Qed.

Lemma insert_key_perm x l : Permutation (insert_key x l) (x :: l).
Proof.
  induction l as [|y l IH]; cbn; [constructor; constructor|]. destruct (key_leb _ _); [apply Permutation_refl|].
  apply (perm_trans (l' := y :: x :: l)); [constructor; exact IH|constructor].
Qed.
Lemma sort_keys_perm l : Permutation (sort_keys l) l.
Proof.
  unfold sort_keys. induction l as [|x l IH]; cbn; [constructor|]. apply (perm_trans (insert_key_perm _ _)). constructor. exact IH.
Qed.

(** The substitutions for symbols in a dictionary. *)
Definition rules_of (p : string) (l : list (key * K)) : list (string * K) :=
  flat_map (fun x => match fst x with KNum _ => [] | KSym s => [(s, snd x)] | KFun s n => [(fvar p s n, snd x)] end) l.

Lemma rules_of_perm p l l' : Permutation l l' -> Permutation (rules_of p l) (rules_of p l').
Proof. apply Permutation_flat_map. Qed.

Lemma rules_of_app p l l' : rules_of p (l ++ l') = rules_of p l ++ rules_of p l'.
Proof. apply flat_map_app. Qed.

Lemma rules_of_dset p k v l : ~ In k (map fst l) \/ (exists b, k = KNum b) ->
  rules_of p (dset key_eqb k v l) = rules_of p (l ++ [(k, v)]).
Proof.
  intros H. rewrite rules_of_app. induction l as [|[k' v'] l IH]; cbn [dset]; [reflexivity|].
  destruct (key_eqb_spec k k') as [->|N].
  - destruct H as [H|[b ->]]; [destruct H; left; reflexivity|]. cbn. rewrite app_nil_r. reflexivity.
  - cbn [rules_of flat_map]. fold (rules_of p (dset key_eqb k v l)). rewrite IH; [|destruct H as [H|H]; [left; intros Z; apply H; right; exact Z|right; exact H]].
    rewrite app_assoc. reflexivity.
Qed.

Lemma dset_in k v (l : list (key * K)) x : In x (dset key_eqb k v l) -> x = (k, v) \/ In x l.
Proof.
  induction l as [|[k' v'] l IH]; cbn; [intros [<-|[]]; left; reflexivity|].
  destruct (key_eqb_spec k k') as [->|N]; intros [<-|H]; auto. destruct (IH H); auto.
Qed.

Lemma dset_keys k v (l : list (key * K)) k' : In k' (map fst (dset key_eqb k v l)) -> k' = k \/ In k' (map fst l).
Proof. intros H. apply in_map_iff in H as (x & <- & H). destruct (dset_in _ _ _ _ H) as [->|G]; [left; reflexivity|right; apply in_map, G]. Qed.

Definition is_num (k : key) : bool := match k with KNum _ => true | _ => false end.

Lemma dict_rules p l : NoDup (filter (fun k => negb (is_num k)) (map fst l)) -> rules_of p (dict_of l) = rules_of p l.
Proof.
  unfold dict_of. assert (G : forall d, (forall k, In k (map fst d) -> is_num k = false -> ~ In k (map fst l)) ->
    NoDup (filter (fun k => negb (is_num k)) (map fst l)) ->
    rules_of p (fold_left (fun d x => dset key_eqb (fst x) (snd x) d) l d) = rules_of p (d ++ l)).
  { induction l as [|[k v] l IH]; intros d H ND; cbn [fold_left fst snd]; [rewrite app_nil_r; reflexivity|].
    assert (E : rules_of p (dset key_eqb k v d) = rules_of p (d ++ [(k, v)])).
    { apply rules_of_dset. destruct k as [b|s|s n]; [right; exists b; reflexivity| |];
        left; intros Z; apply (H _ Z eq_refl); left; reflexivity. }
    rewrite IH.
    - change (d ++ (k, v) :: l) with (d ++ [(k, v)] ++ l). rewrite app_assoc, (rules_of_app p (dset _ _ _ _)), (rules_of_app p (d ++ _)), E. reflexivity.
    - intros k' Hk' Nk' Z. destruct (dset_keys _ _ _ _ Hk') as [->|Hd].
      + cbn [map fst filter] in ND. rewrite Nk' in ND. cbn [negb] in ND. inversion ND as [|? ? X _]; subst. apply X. apply filter_In. rewrite Nk'. split; [exact Z|reflexivity].
      + apply (H k' Hd Nk'). right. exact Z.
    - cbn [map filter] in ND. destruct (negb (is_num (fst (k, v)))); [inversion ND; assumption|exact ND]. }
  intros ND. apply (G []); [intros k []|exact ND].
Qed.

Lemma dict_in l x : In x (dict_of l) -> In x l.
Proof.
  unfold dict_of. assert (G : forall d, In x (fold_left (fun d x => dset key_eqb (fst x) (snd x) d) l d) -> In x d \/ In x l).
  { induction l as [|[k v] l IH]; intros d H; cbn [fold_left fst snd] in H; [left; exact H|].
    destruct (IH _ H) as [Z|Z]; [|right; right; exact Z]. destruct (dset_in _ _ _ _ Z) as [->|Y]; [right; left; reflexivity|left; exact Y]. }
  intros H. destruct (G [] H) as [[]|Z]. exact Z.
Qed.
End Dict.

Section Subst.
Context {A : AlgOps} {L : AlgLaws A} {DL : DiffLaws A} {SL : SubsLaws A} {YL : SymLaws A} {VL : SelfLaws A}.
Add Ring Kring : kring (setoid keq_equiv kring_ext).

Lemma free_eq x e f : e == f -> free_of x e -> free_of x f.
Proof.
  intros E [H1 H2]. split; [rewrite <- (kdiff_proper x _ _ E); exact H1|]. intros q. rewrite <- E. apply H2.
Qed.
Lemma free_zero x e : e == k0 -> free_of x e.
Proof. intros E. apply (free_eq x k0); [symmetry; exact E|apply free_0]. Qed.

Lemma subs_seq_values R R' e : Forall2 (fun r r' => fst r = fst r' /\ snd r == snd r') R R' -> subs_seq R e == subs_seq R' e.
Proof.
  intros H. revert e. induction H as [|[a b] [a' b'] R R' [E1 E2] H IH]; intros e; [reflexivity|]. cbn in E1, E2. subst a'.
  cbn [subs_seq fold_left fst snd]. fold (subs_seq R (ksub1 a b e)). fold (subs_seq R' (ksub1 a b' e)). rewrite IH.
  apply (hom_proper _ (hom_subs_seq R')). apply ksub1_proper; [exact E2|reflexivity].
Qed.

Context {N : NumSubs A} {NL : NumSubsLaws A N}.

Lemma subst_key_proper p x : Proper (keq ==> keq) (fun e => match fst x with KNum _ => e | _ => subst_key p e x end).
Proof. intros e f E. unfold subst_key. destruct (fst x); [exact E| |]; apply ksub1_proper; auto; reflexivity. Qed.

Lemma fold_keys p D : (forall b v, In (KNum b, v) D -> v == if b then k1 else k0) ->
  forall e, fold_left (subst_key p) D e == subs_seq (rules_of p D) e.
Proof.
  induction D as [|[k v] D IH]; intros H e; [reflexivity|].
  cbn [fold_left rules_of flat_map fst snd]. fold (rules_of p D). rewrite IH by (intros b u Hb; apply H; right; exact Hb).
  destruct k as [b|s|s n]; cbn [app subst_key fst snd].
  - apply (hom_proper _ (hom_subs_seq _)). unfold subst_key. cbn. apply ksubn_same. apply H. left. reflexivity.
  - reflexivity.
  - reflexivity.
Qed.

(** All at once: the order and the dictionary do not matter. *)
Lemma replaced_by_dict p E e : NoDup (filter (fun k => negb (is_num k)) (map fst E)) ->
  (forall b v, In (KNum b, v) E -> v == if b then k1 else k0) ->
  NoDup (map fst (rules_of p E)) -> separate (rules_of p E) ->
  fold_left (subst_key p) (sort_keys (dict_of E)) e == subs_seq (rules_of p E) e.
Proof.
  intros N1 H N2 Sp. rewrite fold_keys.
  - assert (P : Permutation (rules_of p E) (rules_of p (sort_keys (dict_of E)))).
    { rewrite <- (dict_rules p E N1). apply rules_of_perm. apply Permutation_sym, sort_keys_perm. }
    symmetry. apply (subs_seq_perm _ _ P); assumption.
  - intros b v Hb. apply H. apply dict_in. apply (Permutation_in _ (sort_keys_perm _)). exact Hb.
Qed.

(** Plain replacement. *)
Lemma replace_symbols_seq r e : NoDup (map fst r) -> (forall k v k', In (k, v) r -> In k' (map fst r) -> free_of k' v) ->
  replace_symbols r e == subs_seq r e.
Proof.
  intros ND F. unfold replace_symbols, symbol_keys. set (E := map (fun x => (KSym (fst x), snd x)) r).
  assert (Er : rules_of "" E = r). { unfold E. clear. induction r as [|[a b] r IH]; [reflexivity|]. cbn. f_equal. exact IH. }
  assert (Ek : map fst E = map KSym (map fst r)). { unfold E. rewrite !map_map. reflexivity. }
  assert (S0 : separate r) by (intros [k v] x H1 H2; exact (F k v x H1 H2)).
  assert (G : forall D e, (forall k v, In (k, v) D -> exists s, k = KSym s) ->
    fold_left (fun e x => match fst x with KSym s => ksub1 s (snd x) e | _ => e end) D e = fold_left (subst_key "") D e).
  { induction D as [|[k v] D IH]; intros e' H; [reflexivity|]. cbn [fold_left fst snd]. rewrite IH by (intros k' v' H'; apply (H k' v'); right; exact H').
    destruct (H k v (or_introl eq_refl)) as [s ->]. reflexivity. }
  rewrite G.
  - rewrite replaced_by_dict; rewrite ?Er; try assumption; [reflexivity| |].
    + rewrite Ek. replace (filter _ _) with (map KSym (map fst r)).
      * apply FinFun.Injective_map_NoDup; [intros x y Z; injection Z; auto|exact ND].
      * clear. induction r as [|x r IH]; [reflexivity|]. cbn. f_equal. exact IH.
    + intros b v H. unfold E in H. apply in_map_iff in H as (x & Z & _). discriminate Z.
  - intros k v H. apply (Permutation_in _ (sort_keys_perm _)), dict_in in H. unfold E in H. apply in_map_iff in H as (x & Z & _).
    exists (fst x). congruence.
Qed.

(** Renaming symbols and back. *)
Lemma rename_back (S : list (string * string)) e :
  NoDup (map fst S) -> NoDup (map snd S) -> (forall t, In t (map snd S) -> ~ In t (map fst S)) ->
  (forall t, In t (map snd S) -> ksub1 t k0 e == e) ->
  subs_seq (map (fun st => (snd st, ksym (fst st))) (rev S)) (subs_seq (map (fun st => (fst st, ksym (snd st))) S) e) == e.
Proof.
  revert e. induction S as [|[s t] S IH]; intros e N1 N2 D F; [reflexivity|]. cbn [rev map]. cbn in N1, N2. inversion N1 as [|? ? X1 N1']; inversion N2 as [|? ? X2 N2']; subst.
  rewrite map_app, subs_seq_app. cbn [map fst snd]. cbn [subs_seq fold_left fst snd].
  fold (subs_seq (map (fun st => (fst st, ksym (snd st))) S) (ksub1 s (ksym t) e)).
  fold (subs_seq (map (fun st => (snd st, ksym (fst st))) (rev S)) (subs_seq (map (fun st => (fst st, ksym (snd st))) S) (ksub1 s (ksym t) e))).
  assert (Hst : s <> t) by (intros ->; apply (D t); left; reflexivity).
  assert (E : subs_seq (map (fun st => (snd st, ksym (fst st))) (rev S)) (subs_seq (map (fun st => (fst st, ksym (snd st))) S) (ksub1 s (ksym t) e)) == ksub1 s (ksym t) e).
  { apply IH; [exact N1'|exact N2'| |].
    - intros u Hu Hu'. apply (D u); right; assumption.
    - intros u Hu. assert (u <> t) by (intros ->; contradiction). assert (s <> u) by (intros ->; apply (D u); [right; exact Hu|left; reflexivity]).
      apply free0_sub; [assumption| |apply F; right; exact Hu]. intros q. apply ksub1_other. assumption. }
  rewrite E. rewrite ksub1_rename; [apply ksub1_self|exact Hst|apply F; left; reflexivity].
Qed.

(** With the way back in any order. *)
Lemma rename_back_any (S S' : list (string * string)) e : Permutation S S' ->
  NoDup (map fst S) -> NoDup (map snd S) -> (forall t, In t (map snd S) -> ~ In t (map fst S)) ->
  (forall t, In t (map snd S) -> ksub1 t k0 e == e) ->
  subs_seq (map (fun st => (snd st, ksym (fst st))) S') (subs_seq (map (fun st => (fst st, ksym (snd st))) S) e) == e.
Proof.
  intros P N1 N2 D F. rewrite <- (rename_back S e N1 N2 D F) at 2. symmetry. apply subs_seq_perm.
  - apply Permutation_map. apply (perm_trans (Permutation_sym (Permutation_rev S))). exact P.
  - rewrite map_map. cbn [fst]. rewrite map_rev. apply NoDup_rev. exact N2.
  - intros r x Hr Hx. apply in_map_iff in Hr as (st & <- & Hst). rewrite map_map in Hx. cbn [fst snd] in *.
    apply in_map_iff in Hx as (su & <- & Hsu). apply free_sym. intros E. apply (D (snd su)); [apply in_map, in_rev, Hsu|].
    rewrite E. apply in_map, in_rev, Hst.
Qed.
End Subst.
