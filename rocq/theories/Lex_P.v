(** The tokens of a text written token by token. *)
From Verif Require Import Base LexM ParseM SpecParse.
From Coq Require Import Ascii.
Import List.

Definition tok_ok (t : token) : Prop :=
  match t with
  | TExpr v => word v
  | TString v => exists s, quotable s /\ v = quoted s
  | _ => True
  end.

Definition is_word (t : token) : bool := match t with TExpr _ => true | _ => false end.

(** No two words side by side. *)
Fixpoint apart (ts : list token) : Prop :=
  match ts with
  | t :: ts' =>
      (match ts' with u :: _ => is_word t && is_word u = false | [] => True end)
      /\ apart ts'
  | [] => True
  end.

Definition lexable (ts : list token) : Prop := Forall tok_ok ts /\ apart ts.

Lemma all_chars (P : ascii -> bool) :
  forallb P (map ascii_of_nat (seq 0 256)) = true -> forall c, P c = true.
Proof.
  intros H c. rewrite forallb_forall in H. apply H.
  apply in_map_iff. exists (nat_of_ascii c). split.
  - apply ascii_nat_embedding.
  - apply in_seq. pose proof (nat_ascii_bounded c). lia.
Qed.

Lemma same_chars (f g : ascii -> bool) :
  forallb (fun c => Bool.eqb (f c) (g c)) (map ascii_of_nat (seq 0 256)) = true -> forall c, f c = g c.
Proof. intros H c. apply Bool.eqb_prop. revert c. apply all_chars, H. Qed.
Lemma digit_is c : digit c = is_digit c.
Proof. revert c. apply same_chars. reflexivity. Qed.
Lemma letter_is c : letter c = is_letter c.
Proof. revert c. apply same_chars. reflexivity. Qed.
Lemma white_is c : white c = is_white c.
Proof. revert c. apply same_chars. reflexivity. Qed.
Lemma quotation_is c : quotation c = is_quote c.
Proof. revert c. apply same_chars. reflexivity. Qed.
Lemma alnum_is c : alnum c = is_digit c || is_letter c.
Proof. unfold alnum. now rewrite digit_is, letter_is. Qed.

Lemma alnum_facts (c : ascii) :
  alnum c = true ->
  is_white c = false /\ is_bracket c = false /\ (c =? ",")%char = false
  /\ (c =? "<")%char = false /\ (c =? "|")%char = false /\ (c =? "-")%char = false
  /\ (c =? ".")%char = false /\ (c =? ">")%char = false
  /\ is_quote c = false.
Proof.
  intros H.
  pose proof (all_chars (fun c => implb (alnum c)
     (negb (is_white c) && negb (is_bracket c) && negb (c =? ",")%char
      && negb (c =? "<")%char && negb (c =? "|")%char && negb (c =? "-")%char
      && negb (c =? ".")%char && negb (c =? ">")%char && negb (is_quote c)))
     eq_refl c) as G.
  cbv beta in G. rewrite H in G. cbn [implb] in G.
  repeat (apply andb_prop in G; destruct G as [G ?]).
  repeat match goal with E : negb _ = true |- _ => apply negb_true_iff in E end.
  repeat split; assumption.
Qed.

Lemma goes_on_alnum (l : text) :
  expr_goes_on l = match l with c :: _ => alnum c | [] => false end.
Proof.
  destruct l as [|c l]; [reflexivity|].
  unfold expr_goes_on. rewrite <- alnum_is. destruct (alnum c) eqn:E; [|reflexivity].
  destruct (alnum_facts c E) as (H1 & H2 & H3 & H4 & H5 & H6 & H7 & H8 & H9).
  rewrite H1, H2, H3. cbn [negb andb]. unfold is_assoc. destruct l as [|b l].
  - reflexivity.
  - rewrite H4, H5, H6. reflexivity.
Qed.

Definition starts_alnum (l : text) : bool :=
  match l with c :: _ => alnum c | [] => false end.

Lemma expr_loop_word (v : text) : forall d acc c rest,
  forallb alnum v = true -> alnum c = true -> starts_alnum rest = false ->
  exists z, expr_loop d acc (c :: v ++ rest) = (acc ++ c :: v, z :: rest).
Proof.
  induction v as [|b v IH]; intros d acc c rest Hv Hc Hr.
  - cbn [app expr_loop]. rewrite goes_on_alnum. unfold starts_alnum in Hr. rewrite Hr.
    exists c. reflexivity.
  - cbn [forallb] in Hv. apply andb_prop in Hv as [Hb Hv].
    cbn [app]. cbn [expr_loop]. rewrite goes_on_alnum. rewrite Hb.
    destruct (alnum_facts c Hc) as (_ & _ & _ & _ & _ & _ & -> & _).
    destruct (IH d (acc ++ [c]) b rest Hv Hb Hr) as [z E]. exists z.
    cbn [app expr_loop] in E. rewrite E. rewrite <- app_assoc. reflexivity.
Qed.

Lemma alnum_not_dot (v : text) (z : ascii) :
  forallb alnum (v ++ [z]) = true -> (z =? ".")%char = false.
Proof.
  intros H. rewrite forallb_app in H. apply andb_prop in H as [_ H].
  cbn in H. rewrite andb_true_r in H. apply alnum_facts in H. tauto.
Qed.

Lemma pad_word (v : text) : forallb alnum v = true -> pad_point v = v.
Proof.
  intros H. unfold pad_point.
  assert (E : match v with
              | [] => v
              | c :: _ => if (c =? ".")%char then "0"%char :: v else v end = v).
  { destruct v as [|c v]; [reflexivity|]. cbn in H. apply andb_prop in H as [H _].
    apply alnum_facts in H. destruct H as (_ & _ & _ & _ & _ & _ & -> & _). reflexivity. }
  rewrite E. clear E.
  destruct (rev v) as [|z r] eqn:E; [reflexivity|].
  assert (V : v = rev r ++ [z]).
  { rewrite <- (rev_involutive v), E. reflexivity. }
  rewrite V in H. rewrite (alnum_not_dot _ _ H). reflexivity.
Qed.

Lemma generate_word (v rest : text) :
  word v -> starts_alnum rest = false ->
  exists z, generate_expr (v ++ rest) = (TExpr v, z :: rest).
Proof.
  intros [N H] R. destruct v as [|c v]; [congruence|].
  pose proof H as H0. cbn [forallb] in H. apply andb_prop in H as [Hc Hv].
  destruct (expr_loop_word v 0 [] c rest Hv Hc R) as [z E]. exists z.
  unfold generate_expr. cbn [app] in E |- *. rewrite E.
  rewrite (pad_word _ H0). reflexivity.
Qed.

Lemma str_loop_plain (s : text) : forall acc c rest,
  forallb (fun c => negb (c =? dquote)%char) (c :: s) = true ->
  exists z, str_loop (Some dquote) acc (c :: s ++ dquote :: rest)
            = (acc ++ removelast (c :: s), z :: dquote :: rest)
            /\ z = last (c :: s) " "%char.
Proof.
  induction s as [|b s IH]; intros acc c rest H.
  - cbn [app str_loop]. rewrite Ascii.eqb_refl. cbn [negb andb].
    exists c. cbn. rewrite app_nil_r. auto.
  - cbn [forallb] in H. apply andb_prop in H as [Hc H].
    pose proof H as H0. apply andb_prop in H as [Hb H].
    destruct (IH (acc ++ [c]) b rest H0) as (z & E & Z). exists z.
    split; [|rewrite Z; reflexivity].
    change (str_loop (Some dquote) acc (c :: (b :: s) ++ dquote :: rest))
      with (if negb (b =? dquote)%char
               && negb (triple (c :: (b :: s) ++ dquote :: rest))
            then str_loop (Some dquote) (acc ++ [c]) (b :: s ++ dquote :: rest)
            else (acc, c :: (b :: s) ++ dquote :: rest)).
    rewrite Hb.
    assert (T : triple (c :: (b :: s) ++ dquote :: rest) = false).
    { cbn [app triple]. destruct (s ++ dquote :: rest); [reflexivity|].
      apply negb_true_iff in Hc. rewrite Hc. reflexivity. }
    rewrite T. cbn [negb andb]. rewrite E. f_equal.
    rewrite <- app_assoc. reflexivity.
Qed.

Lemma generate_quoted (s rest : text) :
  quotable s ->
  generate_str (quoted s ++ rest) = Ok (TString (quoted s), dquote :: rest).
Proof.
  intros (N & H & L). destruct s as [|c s]; [congruence|].
  unfold quoted. unfold generate_str.
  replace ((dquote :: (c :: s) ++ [dquote]) ++ rest)
    with (dquote :: c :: s ++ dquote :: rest)
    by (cbn [app]; rewrite <- app_assoc; reflexivity).
  assert (T : triple (dquote :: c :: s ++ dquote :: rest) = false).
  { cbn [triple]. destruct (s ++ dquote :: rest); [reflexivity|].
    cbn [forallb] in H. apply andb_prop in H as [H _]. apply negb_true_iff in H.
    rewrite H. rewrite andb_false_r. reflexivity. }
  rewrite T. cbn [hd_error firstn skipn].
  destruct (str_loop_plain s [dquote] c rest H) as (z & E & Z). rewrite E.
  assert (Q : is_quote z = false).
  { unfold is_quote. apply orb_false_iff. split.
    - rewrite forallb_forall in H.
      assert (I : In z (c :: s)).
      { rewrite Z. assert (Ex : c :: s <> []) by discriminate.
        rewrite (app_removelast_last " "%char Ex) at 2. apply in_or_app. right. left. reflexivity. }
      apply H in I. apply negb_true_iff in I. exact I.
    - apply Ascii.eqb_neq. rewrite Z. exact L. }
  rewrite Q. f_equal. f_equal. f_equal.
  rewrite Z. cbn [app]. f_equal. rewrite <- app_removelast_last by discriminate.
  reflexivity.
Qed.

Lemma skip_after {A : Type} (z : A) (l : list A) : skipn 1 (z :: l) = l.
Proof. reflexivity. Qed.

(** One turn of the loop. *)
Lemma lex_word (v rest : text) n :
  word v -> starts_alnum rest = false ->
  lex_loop (S n) (v ++ rest) = Ok (TExpr v) :: lex_loop n rest.
Proof.
  intros W R. destruct (generate_word v rest W R) as [z E].
  destruct W as [N H]. destruct v as [|c v]; [congruence|].
  cbn [forallb] in H. apply andb_prop in H as [Hc H].
  destruct (alnum_facts c Hc) as (H1 & _).
  cbn [app] in E |- *. unfold lex_loop; fold lex_loop.
  rewrite H1. rewrite alnum_is in Hc. rewrite <- orb_assoc, Hc, orb_true_r.
  rewrite E. reflexivity.
Qed.

Lemma lex_quoted (s rest : text) n :
  quotable s ->
  lex_loop (S n) (quoted s ++ rest) = Ok (TString (quoted s)) :: lex_loop n rest.
Proof.
  intros Q. pose proof (generate_quoted s rest Q) as E.
  remember (quoted s ++ rest) as l eqn:El.
  assert (exists l', l = dquote :: l') as [l' F] by (rewrite El; eexists; reflexivity).
  rewrite F in E |- *. clear El F.
  unfold lex_loop; fold lex_loop.
  change (is_white dquote) with false. change (is_digit dquote) with false.
  change (is_letter dquote) with false. change (is_quote dquote) with true.
  cbn [orb]. change ((dquote =? ".")%char) with false. cbn [orb]. rewrite E. reflexivity.
Qed.

Definition starts_gt (l : text) : bool :=
  match l with c :: _ => (c =? ">")%char | [] => false end.

Lemma lex_token (t : token) (rest : text) n :
  tok_ok t ->
  (is_word t = true -> starts_alnum rest = false) ->
  (t = TMinus -> starts_gt rest = false) ->
  lex_loop (S n) (show_tok t ++ rest) = Ok t :: lex_loop n rest.
Proof.
  intros T W M.
  destruct t; try (apply lex_word; [exact T|apply W; reflexivity]);
    try (destruct rest as [|? [|? ?]]; reflexivity).
  - cbn [show_tok chars list_ascii_of_string app].
    specialize (M eq_refl). destruct rest as [|d rest]; [reflexivity|].
    cbn [starts_gt] in M. unfold lex_loop; fold lex_loop. rewrite M.
    destruct rest; reflexivity.
  - destruct T as (s & Q & ->). apply lex_quoted. exact Q.
Qed.

Lemma show_tok_start (t : token) : tok_ok t ->
  exists c l, show_tok t = c :: l /\ (c =? ">")%char = false
              /\ (alnum c = true -> is_word t = true).
Proof.
  intros T. destruct t; try (eexists; eexists; split; [reflexivity|split;
    [reflexivity|intros H; vm_compute in H; discriminate H]]).
  - destruct T as [N H]. destruct v as [|c v]; [congruence|].
    exists c, v. cbn [forallb] in H. apply andb_prop in H as [H _].
    split; [reflexivity|]. split; [apply alnum_facts in H; tauto|reflexivity].
  - destruct T as (s & Q & ->). exists dquote, (s ++ [dquote]).
    split; [reflexivity|]. split; [reflexivity|].
    intros H; vm_compute in H; discriminate H.
Qed.

Lemma show_toks_len (ts : list token) :
  Forall tok_ok ts -> List.length ts <= List.length (show_toks ts).
Proof.
  induction 1 as [|t ts T F IH]; [cbn; lia|].
  unfold show_toks in *. cbn [flat_map]. rewrite app_length.
  destruct (show_tok_start t T) as (c & l & -> & _). cbn [List.length]. lia.
Qed.

Lemma lex_shown_loop (ts : list token) : forall n,
  lexable ts -> List.length ts <= n -> lex_loop n (show_toks ts) = map Ok ts.
Proof.
  induction ts as [|t ts IH]; intros n [F A] L.
  - destruct n; reflexivity.
  - cbn [List.length] in L. destruct n as [|n]; [lia|].
    inversion F as [|? ? T F']; subst.
    cbn [apart] in A. destruct A as [A1 A2].
    unfold show_toks. cbn [flat_map]. fold (show_toks ts).
    rewrite lex_token; [rewrite IH; [reflexivity|split; assumption|lia]|exact T| |].
    + intros W. destruct ts as [|u ts]; [reflexivity|].
      inversion F' as [|? ? U ?]; subst.
      unfold show_toks. cbn [flat_map].
      destruct (show_tok_start u U) as (c & l & -> & _ & B).
      cbn [app starts_alnum]. rewrite W in A1. cbn [andb] in A1.
      destruct (alnum c) eqn:Ec; [|reflexivity]. rewrite (B eq_refl) in A1. discriminate.
    + intros _. destruct ts as [|u ts]; [reflexivity|].
      inversion F' as [|? ? U ?]; subst.
      unfold show_toks. cbn [flat_map].
      destruct (show_tok_start u U) as (c & l & -> & B & _). exact B.
Qed.

Theorem lex_shown (ts : list token) :
  lexable ts -> lex (show_toks ts) = map Ok ts.
Proof.
  intros L. unfold lex. apply lex_shown_loop; [exact L|].
  apply show_toks_len. apply L.
Qed.

(** The loop never runs out of fuel. *)
Lemma expr_loop_len (l : text) : forall d acc v r,
  expr_loop d acc l = (v, r) -> List.length r <= List.length l.
Proof.
  induction l as [|c l IH]; intros d acc v r H; cbn [expr_loop] in H.
  - injection H as <- <-. lia.
  - destruct (expr_goes_on l).
    + destruct (c =? ".")%char; [destruct (0 <? d)|].
      * injection H as <- <-. lia.
      * apply IH in H. cbn [List.length]. lia.
      * apply IH in H. cbn [List.length]. lia.
    + injection H as <- <-. lia.
Qed.

Lemma str_loop_len (l : text) : forall q acc v r,
  str_loop q acc l = (v, r) -> List.length r <= List.length l.
Proof.
  induction l as [|c l IH]; intros q acc v r H.
  - cbn [str_loop] in H. injection H as <- <-. lia.
  - change (str_loop q acc (c :: l)) with
      (match l with
       | [] => (acc, c :: l)
       | n :: _ => if negb (match q with Some d => (n =? d)%char | None => false end)
             && negb (triple (c :: l))
          then str_loop q (acc ++ [c]) l else (acc, c :: l) end) in H.
    destruct l as [|n l].
    + injection H as <- <-. lia.
    + destruct (negb _ && negb _).
      * apply IH in H. cbn [List.length] in *. lia.
      * injection H as <- <-. lia.
Qed.

Lemma skipn_len {A : Type} (k : nat) (l : list A) :
  List.length (skipn k l) <= List.length l.
Proof. rewrite skipn_length. lia. Qed.

Lemma lex_fuel (n : nat) : forall l,
  List.length l <= n -> ~ In (Err EFuel) (lex_loop n l).
Proof.
  induction n as [|n IH]; intros l L I.
  - destruct l; [exact I|cbn in L; lia].
  - destruct l as [|c l]; [exact I|]. cbn [List.length] in L.
    assert (One : forall t, In (Err EFuel) (Ok t :: lex_loop n l) -> False).
    { intros t [E|J]; [discriminate|]. apply (IH l); [lia|exact J]. }
    assert (Two : forall t, In (Err EFuel) (Ok t :: lex_loop n (skipn 1 l)) -> False).
    { intros t [E|J]; [discriminate|].
      pose proof (skipn_len 1 l). apply (IH (skipn 1 l)); [lia|exact J]. }
    assert (Gen : forall t l2, List.length l2 <= S (List.length l) ->
               In (Err EFuel) (Ok t :: lex_loop n (skipn 1 l2)) -> False).
    { intros t l2 L2 [E|J]; [discriminate|].
      apply (IH (skipn 1 l2)); [rewrite skipn_length; lia|exact J]. }
    unfold lex_loop in I; fold lex_loop in I.
    destruct (is_white c); [exact (One _ I)|].
    destruct ((c =? ".")%char || is_digit c || is_letter c).
    { destruct (generate_expr (c :: l)) as [t l2] eqn:E. apply (Gen t l2); [|exact I].
      unfold generate_expr in E. destruct (expr_loop 0 [] (c :: l)) as [v r] eqn:F.
      injection E as <- <-. apply expr_loop_len in F. exact F. }
    destruct (is_quote c || triple (c :: l)).
    { destruct (generate_str (c :: l)) as [[t l2]|e] eqn:E.
      - apply (Gen t l2); [|exact I]. unfold generate_str in E.
        destruct (str_loop _ _ (skipn (if triple (c :: l) then 3 else 1) (c :: l)))
          as [v r] eqn:F.
        apply str_loop_len in F. destruct r as [|z r]; [discriminate|].
        assert (G : skipn (if triple (c :: l) then 3 else 1) (z :: r) = l2) by congruence.
        rewrite <- G.
        pose proof (skipn_len (if triple (c :: l) then 3 else 1) (z :: r)).
        pose proof (skipn_len (if triple (c :: l) then 3 else 1) (c :: l)).
        cbn [List.length] in *. lia.
      - destruct I as [I|[]]. injection I as ->. unfold generate_str in E.
        destruct (str_loop _ _ (skipn (if triple (c :: l) then 3 else 1) (c :: l)))
          as [v r] eqn:F.
        destruct r; discriminate. }
    repeat match type of I with
    | In _ (if ?b then Ok _ :: lex_loop n l else _) => destruct b; [exact (One _ I)|]
    | In _ (if ?b then Ok _ :: lex_loop n (skipn 1 l) else _) =>
        destruct b; [exact (Two _ I)|]
    | In _ (if ?b then lex_loop n _ else _) =>
        destruct b; [pose proof (skipn_len 1 l); apply (IH (skipn 1 l)); [lia|exact I]|]
    end.
    destruct I as [I|[]]. discriminate I.
Qed.

Theorem lex_no_fuel (l : text) : ~ In (Err EFuel) (lex l).
Proof. apply lex_fuel. lia. Qed.
