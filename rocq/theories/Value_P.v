(** The values parse_str gives to expressions and documents. *)
From Verif Require Import Base LexM ParseM InterpM SpecParse Lex_P Parse_P Doc_P Text_P
  Read_P Witness_Parse_P.
From Coq Require Import Ascii.
Import List.

(** ** Greek letters *)
Lemma text_eqb_refl a : text_eqb a a = true.
Proof. apply text_eqb_spec. reflexivity. Qed.

Ltac in_cases H :=
  repeat (destruct H as [H|H]; [subst|]); [..|contradiction].

Lemma greek_lookup v :
  match find (fun p => text_eqb (chars (fst p)) v) greek_letters with
  | Some p => chars (snd p)
  | None => v
  end = greek_name v.
Proof.
  destruct (find (fun p => text_eqb (chars (fst p)) v) greek_letters) as [p|] eqn:F.
  - apply find_some in F as [I E]. apply text_eqb_spec in E. subst v.
    assert (A : forallb (fun p => text_eqb (chars (snd p)) (greek_name (chars (fst p))))
                  greek_letters = true) by (vm_compute; reflexivity).
    rewrite forallb_forall in A. apply text_eqb_spec, A, I.
  - unfold greek_name.
    assert (N : forall k, In k (map fst greek_letters) -> v <> chars k).
    { intros k I -> . apply in_map_iff in I as (p & <- & I).
      pose proof (find_none _ _ F p I) as G. cbv beta in G. rewrite text_eqb_refl in G. discriminate. }
    assert (A : forallb (fun x => existsb (fun k => text_eqb (chars k) (chars "Capital" ++ capital (chars x)))
                                    (map fst greek_letters)
                                  && existsb (fun k => text_eqb (chars k) (capital (chars x)))
                                    (map fst greek_letters)) greek_alphabet = true)
      by (vm_compute; reflexivity).
    rewrite forallb_forall in A.
    destruct (find (fun x => text_eqb v (chars "Capital" ++ capital (chars x))) greek_alphabet)
      as [x|] eqn:F1.
    { apply find_some in F1 as [I E]. apply text_eqb_spec in E. apply A in I.
      apply andb_prop in I as [I _]. apply existsb_exists in I as (k & K & T).
      apply text_eqb_spec in T. exfalso. apply (N k K). congruence. }
    destruct (find (fun x => text_eqb v (capital (chars x))) greek_alphabet) as [x|] eqn:F2.
    { apply find_some in F2 as [I E]. apply text_eqb_spec in E. apply A in I.
      apply andb_prop in I as [_ I]. apply existsb_exists in I as (k & K & T).
      apply text_eqb_spec in T. exfalso. apply (N k K). congruence. }
    destruct (text_eqb v (chars "DottedSquare")) eqn:F3; [|reflexivity].
    apply text_eqb_spec in F3. exfalso. apply (N "DottedSquare"%string); [|exact F3].
    apply in_map_iff. exists ("DottedSquare", "T")%string. split; [reflexivity|].
    unfold greek_letters. apply in_or_app. right. apply in_or_app. right. left. reflexivity.
Qed.

(** ** The printed form *)
Lemma py_list_sep l : py_list l = chars "[" ++ sep_by (chars ", ") l ++ chars "]".
Proof.
  unfold py_list. f_equal. f_equal. destruct l as [|x l]; [reflexivity|]. cbn [sep_by].
  revert x. induction l as [|y l IH]; intros x; [cbn; rewrite app_nil_r; reflexivity|].
  cbn [flat_map]. rewrite <- app_assoc, <- IH. reflexivity.
Qed.

Lemma repr_printed e : repr (tree e) = printed e.
Proof.
  induction e using exp_rect2; cbn [tree repr printed]; unfold printed2;
    rewrite ?IHe, ?IHe1, ?IHe2; try reflexivity.
  cbn [map]. rewrite py_list_sep. cbn [sep_by flat_map]. rewrite app_nil_r.
  destruct l as [|y l].
  - rewrite IHe. reflexivity.
  - rewrite py_list_sep.
    assert (M : map repr (tree e :: map tree (y :: l)) = printed e :: map printed (y :: l)).
    { cbn [map]. rewrite IHe. inversion H; subst. f_equal. f_equal; [assumption|].
      rewrite map_map. apply map_ext_in. intros z I. rewrite Forall_forall in H. apply H. right. exact I. }
    rewrite M. change (chars "[[") with (chars "[" ++ chars "[").
    change (chars "]]") with (chars "]" ++ chars "]"). cbn [map sep_by].
    rewrite <- !app_assoc. reflexivity.
Qed.

Section Values.
Context {O : PyOps}.

Lemma each_rmap {X Y : Type} (f g : X -> res Y) l : (forall x, f x = g x) -> rmap f l = each g l.
Proof. intros H. induction l as [|x l IH]; [reflexivity|]. cbn. rewrite H, IH. reflexivity. Qed.

Lemma rmap_map {X Y Z : Type} (h : X -> Y) (f : Y -> res Z) l :
  rmap f (map h l) = rmap (fun x => f (h x)) l.
Proof. induction l as [|x l IH]; [reflexivity|]. cbn. rewrite IH. reflexivity. Qed.

Lemma visit_exp e : visit (tree e) = do x <- meaning e; Ok (VE x).
Proof.
  induction e using exp_rect2; cbn [tree visit meaning];
    rewrite ?IHe, ?IHe1, ?IHe2; clear;
    repeat match goal with
    | |- context [rbind (meaning ?a) _] => destruct (meaning a); cbn [rbind]; try reflexivity
    end; cbn [op2 py_neg sympify_val expr_arg rbind]; try reflexivity.
  - destruct (o_neg _); reflexivity.
  - destruct (o_pow _ _); reflexivity.
  - destruct (text_eqb f (chars "Derivative")); [destruct l; reflexivity|].
    assert (S : sympify_args [match l with [] => inl (tree e) | _ :: _ => inr (tree e :: map tree l) end]
                = each (fun x : exp => o_sympify (printed x)) (e :: l)).
    { rewrite <- (each_rmap (fun x : exp => o_sympify (repr (tree x)))) by (intros x; rewrite (repr_printed x); reflexivity).
      destruct l as [|y l]; cbn [sympify_args]; [cbn [rmap]; destruct (o_sympify _); reflexivity|].
      change (tree e :: map tree (y :: l)) with (map tree (e :: y :: l)). apply (rmap_map tree (fun a => o_sympify (repr a))). }
    rewrite S. destruct (each _ (e :: l)); reflexivity.
  - rewrite <- greek_lookup. destruct (find _ greek_letters); reflexivity.
Qed.

Theorem read_meaning sp e : words_ok e ->
  settles (fun n => parse_str n (show sp 1 e)) (do x <- meaning e; Ok (VE x)).
Proof. intros W. rewrite <- visit_exp. apply read_exp, W. Qed.

(** ** Dictionaries *)
Definition set_all (l d : list (val * val)) : list (val * val) :=
  fold_left (fun d p => dict_set (fst p) (snd p) d) l d.

Lemma build_all ks : forall vs d, List.length ks = List.length vs ->
  build_dict (combine (map Ok ks) (map Ok vs)) d
  = if forallb hashable ks then Ok (VD (set_all (combine ks vs) d)) else Err ETypeError.
Proof.
  induction ks as [|k ks IH]; intros [|v vs] d L; try discriminate; [reflexivity|].
  injection L as L. cbn [map combine build_dict rbind forallb].
  destruct (hashable k); [|reflexivity]. cbn [andb]. rewrite IH by exact L. reflexivity.
Qed.

(** [o_same] is the equality of expressions. *)
Definition same_is_equal : Prop := forall x y : E, o_same x y = true <-> x = y.

Lemma equal_keys_same a b : key_same a b = equal_keys a b.
Proof. destruct a, b; reflexivity. Qed.

Lemma may_be_key_hashable ks : forallb hashable ks = forallb may_be_key ks.
Proof. induction ks as [|k ks IH]; [reflexivity|]. cbn [forallb]. rewrite IH. destruct k; reflexivity. Qed.

Lemma key_same_eq a b : same_is_equal -> hashable a = true -> (key_same a b = true <-> a = b).
Proof.
  intros S H. destruct a; try discriminate; destruct b; cbn [key_same];
    try (split; discriminate).
  - unfold same_is_equal in S. rewrite S. split; congruence.
  - rewrite text_eqb_spec. split; congruence.
Qed.

Lemma equal_keys_eq a b : same_is_equal -> hashable a = true -> (equal_keys a b = true <-> a = b).
Proof. rewrite <- equal_keys_same. apply key_same_eq. Qed.

Definition entries (f : val -> option val) (K : list val) : list (val * val) :=
  flat_map (fun k => match f k with Some v => [(k, v)] | None => [] end) K.

Lemma entries_ext f g K : (forall k, In k K -> f k = g k) -> entries f K = entries g K.
Proof.
  induction K as [|k K IH]; intros H; [reflexivity|]. cbn [entries flat_map].
  fold (entries f K) (entries g K). rewrite (H k) by (left; reflexivity). f_equal. apply IH.
  intros k' I. apply H. right. exact I.
Qed.

Lemma has_key_in k K : same_is_equal -> hashable k = true -> (has_key k K = true <-> In k K).
Proof.
  intros S H. unfold has_key. rewrite existsb_exists. split.
  - intros (x & I & E). apply equal_keys_eq in E; [|exact S|exact H]. subst x. exact I.
  - intros I. exists k. split; [exact I|]. apply equal_keys_eq; auto.
Qed.

Lemma set_entry (S : same_is_equal) f k v K :
  hashable k = true -> Forall (fun k => hashable k = true) K -> NoDup K ->
  (forall k', In k' K -> f k' <> None) ->
  dict_set k v (entries f K)
  = entries (fun k' => if equal_keys k' k then Some v else f k')
            (if has_key k K then K else K ++ [k]).
Proof.
  intros Hk. induction K as [|a K IH]; intros HK N D.
  - cbn. rewrite (proj2 (equal_keys_eq k k S Hk) eq_refl). reflexivity.
  - inversion HK as [|? ? Ha HK']; subst. inversion N as [|? ? Na N']; subst.
    destruct (f a) as [u|] eqn:Fa; [|exfalso; apply (D a); [left; reflexivity|exact Fa]].
    change (entries f (a :: K)) with (match f a with Some v => [(a, v)] | None => [] end ++ entries f K).
    rewrite Fa. cbn [app dict_set]. rewrite (equal_keys_same a k). destruct (equal_keys a k) eqn:E.
    + apply equal_keys_eq in E; [|exact S|exact Ha]. subst a.
      assert (Hh : has_key k (k :: K) = true) by (apply has_key_in; [exact S|exact Hk|left; reflexivity]).
      rewrite Hh.
      change (entries (fun k' => if equal_keys k' k then Some v else f k') (k :: K))
        with (match (if equal_keys k k then Some v else f k) with Some v => [(k, v)] | None => [] end
              ++ entries (fun k' => if equal_keys k' k then Some v else f k') K).
      rewrite (proj2 (equal_keys_eq k k S Hk) eq_refl). cbn [app]. f_equal.
      apply entries_ext. intros k' I. destruct (equal_keys k' k) eqn:E; [|reflexivity].
      rewrite Forall_forall in HK'. apply equal_keys_eq in E; [|exact S|apply HK', I]. subst k'. contradiction.
    + assert (Hh : has_key k (a :: K) = has_key k K).
      { unfold has_key. cbn [existsb]. destruct (equal_keys k a) eqn:E2; [|reflexivity].
        apply equal_keys_eq in E2; [|exact S|exact Hk]. subst a.
        rewrite (proj2 (equal_keys_eq k k S Hk) eq_refl) in E. discriminate. }
      rewrite Hh, IH; [|exact HK'|exact N'|intros k' I; apply D; right; exact I].
      destruct (has_key k K); cbn [entries flat_map app]; rewrite E, Fa; reflexivity.
Qed.

Lemma keys_once_snoc ks k :
  keys_once (ks ++ [k]) = if has_key k (keys_once ks) then keys_once ks else keys_once ks ++ [k].
Proof. unfold keys_once. rewrite fold_left_app. reflexivity. Qed.

Lemma keys_once_ok (S : same_is_equal) ks : Forall (fun k => hashable k = true) ks ->
  NoDup (keys_once ks) /\ (forall k, In k (keys_once ks) <-> In k ks).
Proof.
  induction ks as [|k ks IH] using rev_ind; intros H.
  - split; [constructor|]. intros k. reflexivity.
  - apply Forall_app in H as [H Hk]. inversion Hk as [|? ? Hk1 _]; subst.
    destruct (IH H) as [N I]. rewrite keys_once_snoc.
    destruct (has_key k (keys_once ks)) eqn:E.
    + apply has_key_in in E; [|exact S|exact Hk1]. split; [exact N|]. intros x.
      rewrite I, in_app_iff. split; [tauto|]. intros [J|[<-|[]]]; [exact J|apply I, E].
    + assert (Nk : ~ In k (keys_once ks)).
      { intros J. apply (has_key_in k _ S Hk1) in J. congruence. }
      split.
      * apply NoDup_rev in N. rewrite <- (rev_involutive (keys_once ks ++ [k])). apply NoDup_rev.
        rewrite rev_app_distr. cbn [rev app]. constructor; [|exact N]. rewrite <- in_rev. exact Nk.
      * intros x. rewrite !in_app_iff, I. reflexivity.
Qed.

Lemma last_value_snoc k' l k v :
  last_value k' (l ++ [(k, v)]) = if equal_keys k' k then Some v else last_value k' l.
Proof.
  unfold last_value. rewrite rev_app_distr. cbn [rev app find fst].
  destruct (equal_keys k' k); reflexivity.
Qed.

Lemma last_value_some (S : same_is_equal) k l : hashable k = true -> In k (map fst l) -> last_value k l <> None.
Proof.
  intros Hk I. unfold last_value. apply in_map_iff in I as ((k', v) & E & I). cbn in E. subst k'.
  destruct (find _ (rev l)) eqn:F; [discriminate|].
  apply in_rev in I. pose proof (find_none _ _ F _ I) as G. cbn [fst] in G.
  rewrite (proj2 (equal_keys_eq k k S Hk) eq_refl) in G. discriminate.
Qed.

Lemma set_all_dict (S : same_is_equal) l : Forall (fun k => hashable k = true) (map fst l) ->
  set_all l [] = dict_of l.
Proof.
  induction l as [|[k v] l IH] using rev_ind; intros H; [reflexivity|].
  rewrite map_app in H. apply Forall_app in H as [H Hk]. inversion Hk as [|? ? Hk1 _]; subst. cbn [fst] in Hk1.
  unfold set_all. rewrite fold_left_app. cbn [fold_left fst snd]. fold (set_all l []). rewrite (IH H).
  destruct (keys_once_ok S (map fst l) H) as [N I].
  assert (HK : Forall (fun k => hashable k = true) (keys_once (map fst l))).
  { rewrite Forall_forall in *. intros x J. apply H, I, J. }
  change (dict_of l) with (entries (fun k => last_value k l) (keys_once (map fst l))).
  rewrite (set_entry S); [|exact Hk1|exact HK|exact N|].
  - unfold dict_of. rewrite map_app. cbn [map fst]. rewrite keys_once_snoc.
    unfold entries. apply flat_map_ext. intros x. rewrite last_value_snoc. reflexivity.
  - intros k' J. rewrite Forall_forall in HK. apply (last_value_some S); [apply HK, J|apply I, J].
Qed.

Lemma every_map {X Y : Type} (f : X -> option Y) l vs : every (map f l) = Some vs ->
  Forall2 (fun x v => f x = Some v) l vs.
Proof.
  revert vs. induction l as [|x l IH]; intros vs H; cbn [map every] in H.
  - injection H as <-. constructor.
  - destruct (f x) as [y|] eqn:F; [|discriminate]. destruct (every (map f l)) as [ys|]; [|discriminate].
    injection H as <-. constructor; [exact F|]. apply IH. reflexivity.
Qed.

Lemma forall2_ok {X : Type} (f : X -> res val) l vs : Forall2 (fun x v => f x = Ok v) l vs ->
  map f l = map Ok vs.
Proof. induction 1; [reflexivity|]. cbn [map]. congruence. Qed.

Lemma forall2_len {X Y : Type} (P : X -> Y -> Prop) l vs : Forall2 P l vs -> List.length l = List.length vs.
Proof. induction 1; [reflexivity|]. cbn. congruence. Qed.

Lemma rall_oks (vs : list val) : rall (map Ok vs) = Ok vs.
Proof. induction vs as [|v vs IH]; [reflexivity|]. cbn [map rall rbind]. rewrite IH. reflexivity. Qed.

Lemma known_some {X : Type} (r : res X) x : known r = Some x -> r = Ok x.
Proof. destruct r; cbn; congruence. Qed.

Lemma visit_doc (S : same_is_equal) d : forall v, names_plain d -> doc_value d = Some v ->
  visit (doc_tree d) = Ok v.
Proof.
  induction d using doc_rect2; intros v N V; cbn [doc_value doc_tree] in *; cbn [names_plain] in N.
  - rewrite visit_exp. destruct (meaning e); [|discriminate]. cbn in V |- *. congruence.
  - injection V as <-. apply visit_name, N.
  - cbn [visit]. rewrite !visit_exp.
    destruct (meaning a); [|discriminate]. destruct (meaning b); [|discriminate]. cbn [rbind] in *.
    cbn [op2 expr_arg rbind]. destruct (o_eq _ _); [|discriminate]. cbn in V |- *. congruence.
  - destruct (every (map doc_value l)) as [vs|] eqn:E; [|discriminate]. cbn in V. injection V as <-.
    cbn [visit]. apply every_map in E. apply fold_and in N.
    assert (M : map visit (map doc_tree l) = map Ok vs).
    { rewrite map_map. apply (forall2_ok (fun x => visit (doc_tree x))).
      induction E; [constructor|]. inversion H; subst. inversion N; subst. constructor; auto. }
    rewrite M, rall_oks. reflexivity.
  - destruct (every (map (fun x => doc_value (fst x)) l)) as [ks|] eqn:EK; [|discriminate].
    destruct (every (map (fun x => doc_value (snd x)) l)) as [vs|] eqn:EV; [|discriminate].
    injection V as <-. cbn [visit]. apply every_map in EK, EV. apply fold_and2 in N.
    pose proof (forall2_len _ _ _ EK) as LK. pose proof (forall2_len _ _ _ EV) as LV.
    assert (MK : map visit (map (fun x => doc_tree (fst x)) l) = map Ok ks).
    { rewrite map_map. apply (forall2_ok (fun x => visit (doc_tree (fst x)))). clear EV LV LK.
      induction EK; [constructor|]. inversion H as [|? ? [? ?]]; subst. inversion N as [|? ? [? ?]]; subst.
      constructor; auto. }
    assert (MV : map visit (map (fun x => doc_tree (snd x)) l) = map Ok vs).
    { rewrite map_map. apply (forall2_ok (fun x => visit (doc_tree (snd x)))). clear EK MK LV LK.
      induction EV; [constructor|]. inversion H as [|? ? [? ?]]; subst. inversion N as [|? ? [? ?]]; subst.
      constructor; auto. }
    rewrite MK, MV, build_all by congruence. rewrite <- (may_be_key_hashable ks). destruct (forallb hashable ks) eqn:H0.
    + rewrite (set_all_dict S); [reflexivity|].
      assert (F : map fst (combine ks vs) = ks).
      { clear -LK LV. assert (L : List.length ks = List.length vs) by congruence. clear LK LV.
        revert vs L. induction ks as [|k ks IH]; intros [|v vs] L; try discriminate; [reflexivity|].
        injection L as L. cbn. f_equal. apply IH, L. }
      rewrite F. apply Forall_forall. apply forallb_forall, H0.
    + rewrite !rall_oks. reflexivity.
  - apply IHd; assumption.
Qed.

Theorem read_value (S : same_is_equal) mk d v : doc_ok true d -> names_plain d ->
  doc_value d = Some v -> settles (fun n => parse_str n (show_doc mk d)) (Ok v).
Proof.
  intros D N V. rewrite <- (visit_doc S d v N V). apply read_doc; assumption.
Qed.

(** ** Texts of white space only *)
Theorem blank_text s : forallb space s = true ->
  settles (fun n => parse_str n s) (Err EAttributeError).
Proof.
  intros H'. assert (H : forallb is_space s = true) by (rewrite forallb_forall in *; intros c I; rewrite <- space_is; exact (H' c I)). clear H'. apply settles_now. intros n. unfold parse_str, normalise.
  assert (R : replace (chars "\\ReleaseHold") [] s = s).
  { apply replace_id; [|reflexivity]. unfold no_backslash. rewrite forallb_forall in *. intros c I.
    apply H in I. destruct (c =? backslash)%char eqn:E; [|reflexivity].
    apply Ascii.eqb_eq in E. subst c. discriminate. }
  rewrite R.
  assert (W : words_loop [] s = []).
  { clear R. induction s as [|c s IH]; [reflexivity|]. cbn [forallb] in H. apply andb_prop in H as [C H].
    cbn [words_loop]. rewrite C. apply IH, H. }
  rewrite W. reflexivity.
Qed.

End Values.
