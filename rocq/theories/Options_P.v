(** Proofs about options and labels. *)
From Coq Require Import Ascii.
From Verif Require Import Base LexM InterpM OptionsM SpecOptions.
Import List.

Ltac inv H := inversion H; subst; clear H.

(** ** Reading names *)
Lemma mem_char_spec c l : mem_char c l = true <-> In c l.
Proof.
  unfold mem_char. rewrite existsb_exists. split.
  - intros [x [I E]]. apply Ascii.eqb_eq in E. subst. exact I.
  - intros I. exists c. split; [exact I|apply Ascii.eqb_refl].
Qed.

Lemma no_special_mem s : no_special s -> mem_char ":" s || mem_char backslash s = false.
Proof.
  intros F. unfold no_special in F. rewrite Forall_forall in F. apply orb_false_intro.
  - destruct (mem_char ":" s) eqn:E; [|reflexivity]. apply mem_char_spec in E. destruct (F _ E); congruence.
  - destruct (mem_char backslash s) eqn:E; [|reflexivity]. apply mem_char_spec in E. destruct (F _ E); congruence.
Qed.

Definition nosp (s : text) : Prop := Forall (fun c => is_space c = false) s.
Definition allsp (s : text) : Prop := Forall (fun c => is_space c = true) s.
Definition nocomma (s : text) : Prop := Forall (fun c => c <> ","%char) s.

Lemma lstrip_sp a s : allsp a -> lstrip (a ++ s) = lstrip s.
Proof. induction 1 as [|c a H _ IH]; [reflexivity|]. cbn. rewrite H. exact IH. Qed.

Lemma lstrip_head c s : is_space c = false -> lstrip (c :: s) = c :: s.
Proof. intros H. cbn. rewrite H. reflexivity. Qed.

Lemma lstrip_word x s : x <> [] -> nosp x -> lstrip (x ++ s) = x ++ s.
Proof. intros N F. destruct x as [|c x]; [congruence|]. inv F. cbn. rewrite H1. reflexivity. Qed.

Lemma lstrip_split s : exists a, allsp a /\ s = a ++ lstrip s.
Proof.
  induction s as [|c s [a [F E]]]; [exists []; split; [constructor|reflexivity]|].
  cbn. destruct (is_space c) eqn:H.
  - exists (c :: a). split; [constructor; assumption|]. cbn. rewrite <- E. reflexivity.
  - exists []. split; [constructor|reflexivity].
Qed.

Lemma rstrip_word s x : x <> [] -> nosp x -> rstrip (s ++ x) = s ++ x.
Proof.
  intros N F. unfold rstrip. rewrite rev_app_distr. rewrite lstrip_word.
  - rewrite rev_app_distr, !rev_involutive. reflexivity.
  - intros E. apply N. rewrite <- (rev_involutive x), E. reflexivity.
  - unfold nosp in *. rewrite Forall_forall in *. intros c I. apply F. apply in_rev. exact I.
Qed.

Lemma rstrip_sp s a : allsp a -> rstrip (s ++ a) = rstrip s.
Proof.
  intros F. unfold rstrip. rewrite rev_app_distr. rewrite lstrip_sp; [reflexivity|].
  unfold allsp in *. rewrite Forall_forall in *. intros c I. apply F. apply in_rev. exact I.
Qed.

Lemma rstrip_split s : exists a, allsp a /\ s = rstrip s ++ a.
Proof.
  destruct (lstrip_split (rev s)) as [a [F E]]. exists (rev a). split.
  - unfold allsp in *. rewrite Forall_forall in *. intros c I. apply F. apply in_rev. exact I.
  - unfold rstrip. rewrite <- rev_app_distr, <- E, rev_involutive. reflexivity.
Qed.

Lemma strip_split s : exists a b, allsp a /\ allsp b /\ s = a ++ strip s ++ b.
Proof.
  destruct (lstrip_split s) as [a [Fa Ea]]. destruct (rstrip_split (lstrip s)) as [b [Fb Eb]].
  exists a, b. split; [exact Fa|]. split; [exact Fb|]. unfold strip. rewrite <- Eb. exact Ea.
Qed.

(** Words *)
Lemma words_word w x s : nosp x -> words_loop w (x ++ s) = words_loop (w ++ x) s.
Proof.
  intros F. revert w. induction F as [|c x H _ IH]; intros w; [rewrite app_nil_r; reflexivity|].
  cbn [app words_loop]. rewrite H. rewrite IH. rewrite <- app_assoc. reflexivity.
Qed.

Lemma words_sp a s : allsp a -> words_loop [] (a ++ s) = words_loop [] s.
Proof. induction 1 as [|c a H _ IH]; [reflexivity|]. cbn. rewrite H. exact IH. Qed.

Lemma words_end w a : w <> [] -> allsp a -> words_loop w a = [w].
Proof.
  intros N F. destruct F as [|c a H F].
  - destruct w; [congruence|reflexivity].
  - cbn. rewrite H. rewrite <- (app_nil_r a). rewrite words_sp by exact F. destruct w; [congruence|reflexivity].
Qed.

Lemma words_next w a s : w <> [] -> a <> [] -> allsp a -> words_loop w (a ++ s) = w :: words_loop [] s.
Proof.
  intros N Na F. destruct F as [|c a H F]; [congruence|].
  cbn [app words_loop]. rewrite H. rewrite words_sp by exact F. destruct w; [congruence|reflexivity].
Qed.

Lemma words_good s : forall w, nosp w -> Forall (fun x => x <> [] /\ nosp x) (words_loop w s).
Proof.
  induction s as [|c s IH]; intros w F; cbn [words_loop].
  - destruct w; [constructor|]. constructor; [|constructor]. split; [discriminate|exact F].
  - destruct (is_space c) eqn:H.
    + destruct w; [apply IH; constructor|]. constructor; [split; [discriminate|exact F]|]. apply IH. constructor.
    + apply IH. apply Forall_app. split; [exact F|]. constructor; [exact H|constructor].
Qed.

Lemma words_chars (P : ascii -> Prop) s : forall w, Forall P w -> Forall P s -> Forall (Forall P) (words_loop w s).
Proof.
  induction s as [|c s IH]; intros w Fw Fs; cbn [words_loop].
  - destruct w; [constructor|]. constructor; [exact Fw|constructor].
  - inv Fs. destruct (is_space c).
    + destruct w; [apply IH; [constructor|assumption]|]. constructor; [exact Fw|]. apply IH; [constructor|assumption].
    + apply IH; [|assumption]. apply Forall_app. split; [exact Fw|]. constructor; [assumption|constructor].
Qed.

(** Commas *)
Lemma commas_word w x : nocomma x -> split_commas w x = [w ++ x].
Proof.
  intros F. revert w. induction F as [|c x H _ IH]; intros w; cbn [split_commas]; [rewrite app_nil_r; reflexivity|].
  apply Ascii.eqb_neq in H. rewrite H. rewrite IH. rewrite <- app_assoc. reflexivity.
Qed.

Lemma commas_next w x s : nocomma x -> split_commas w (x ++ ","%char :: s) = (w ++ x) :: split_commas [] s.
Proof.
  intros F. revert w. induction F as [|c x H _ IH]; intros w; cbn [app split_commas].
  - rewrite Ascii.eqb_refl. rewrite app_nil_r. reflexivity.
  - apply Ascii.eqb_neq in H. rewrite H. rewrite IH. rewrite <- app_assoc. reflexivity.
Qed.

Lemma commas_ne s : forall w, split_commas w s <> [].
Proof. induction s as [|c s IH]; intros w; cbn [split_commas]; [discriminate|]. destruct (c =? ",")%char; [discriminate|apply IH]. Qed.

Lemma commas_good s : forall w, nocomma w -> Forall nocomma (split_commas w s).
Proof.
  induction s as [|c s IH]; intros w F; cbn [split_commas].
  - constructor; [exact F|constructor].
  - destruct (c =? ",")%char eqn:H.
    + constructor; [exact F|]. apply IH. constructor.
    + apply IH. apply Forall_app. split; [exact F|]. constructor; [|constructor]. apply Ascii.eqb_neq. exact H.
Qed.

Lemma commas_chars (P : ascii -> Prop) s : forall w, Forall P w -> Forall P s -> Forall (Forall P) (split_commas w s).
Proof.
  induction s as [|c s IH]; intros w Fw Fs; cbn [split_commas].
  - constructor; [exact Fw|constructor].
  - inv Fs. destruct (c =? ",")%char.
    + constructor; [exact Fw|]. apply IH; [constructor|assumption].
    + apply IH; [|assumption]. apply Forall_app. split; [exact Fw|]. constructor; [assumption|constructor].
Qed.

(** *** Texts between plain names *)
Lemma plain_nosp x : Forall plain_char x -> nosp x.
Proof. intros F. unfold nosp. eapply Forall_impl; [|exact F]. intros c [H _]. exact H. Qed.
Lemma plain_nocomma x : Forall plain_char x -> nocomma x.
Proof. intros F. unfold nocomma. eapply Forall_impl; [|exact F]. intros c [_ [H _]]. exact H. Qed.
Lemma plain_nospecial x : Forall plain_char x -> no_special x.
Proof. intros F. unfold no_special. eapply Forall_impl; [|exact F]. intros c (_ & _ & H). exact H. Qed.

Lemma space_char c : is_space c = true -> c <> ","%char /\ c <> ":"%char /\ c <> backslash.
Proof. intros H. repeat split; intros ->; discriminate H. Qed.

Lemma sep_nospecial sep : separator sep -> no_special sep.
Proof.
  intros [_ [F|(a & b & -> & Fa & Fb)]]; unfold no_special.
  - eapply Forall_impl; [|exact F]. intros c H. apply space_char in H. tauto.
  - apply Forall_app. split; [eapply Forall_impl; [|exact Fa]; intros c H; apply space_char in H; tauto|].
    constructor; [split; discriminate|]. eapply Forall_impl; [|exact Fb]. intros c H. apply space_char in H. tauto.
Qed.

Lemma separated_cons sep x l : l <> [] -> separated sep (x :: l) = x ++ sep ++ separated sep l.
Proof. destruct l; [congruence|reflexivity]. Qed.

Lemma separated_nospecial sep l : no_special sep -> Forall plain_letter l -> no_special (separated sep l).
Proof.
  intros Fs F. induction F as [|x l [_ Hx] F IH]; [constructor|].
  destruct l as [|y l]; [cbn; apply plain_nospecial; exact Hx|].
  rewrite separated_cons by discriminate. unfold no_special in *. apply Forall_app. split; [apply plain_nospecial; exact Hx|].
  apply Forall_app. split; [exact Fs|exact IH].
Qed.

Lemma separated_head sep l : l <> [] -> Forall plain_letter l -> exists c s, separated sep l = c :: s /\ plain_char c.
Proof.
  intros N F. destruct F as [|x l [Nx Hx] F]; [congruence|]. destruct x as [|c x]; [congruence|]. inv Hx.
  destruct l as [|y l]; [exists c, x; split; [reflexivity|assumption]|].
  exists c, (x ++ sep ++ separated sep (y :: l)). split; [reflexivity|assumption].
Qed.

Lemma separated_last sep l : l <> [] -> Forall plain_letter l -> exists s x, separated sep l = s ++ x /\ plain_letter x.
Proof.
  intros N F. induction F as [|x l Hx F IH]; [congruence|].
  destruct l as [|y l]; [exists [], x; split; [reflexivity|exact Hx]|].
  destruct IH as (s & z & E & Hz); [discriminate|]. exists (x ++ sep ++ s), z. split; [|exact Hz].
  rewrite separated_cons by discriminate. rewrite E. rewrite !app_assoc. reflexivity.
Qed.

Lemma separated_strip sep l : l <> [] -> Forall plain_letter l -> strip (separated sep l) = separated sep l.
Proof.
  intros N F. destruct (separated_head sep l N F) as (c & s & E & [Hc _]). unfold strip.
  rewrite E. rewrite lstrip_head by exact Hc. rewrite <- E.
  destruct (separated_last sep l N F) as (s' & x & E' & Nx & Hx). rewrite E'. apply rstrip_word; [exact Nx|].
  apply plain_nosp, Hx.
Qed.

Lemma ends_comma_word s x : x <> [] -> nocomma x -> ends_with_comma (s ++ x) = false.
Proof.
  intros N F. unfold ends_with_comma. rewrite rev_app_distr.
  destruct (rev x) as [|c y] eqn:E.
  - destruct N. rewrite <- (rev_involutive x), E. reflexivity.
  - cbn. apply Ascii.eqb_neq. unfold nocomma in F. rewrite Forall_forall in F. apply F. apply in_rev. rewrite E. left. reflexivity.
Qed.

Lemma separated_comma sep l : l <> [] -> Forall plain_letter l -> ends_with_comma (separated sep l) = false.
Proof.
  intros N F. destruct (separated_last sep l N F) as (s' & x & E' & Nx & Hx). rewrite E'.
  apply ends_comma_word; [exact Nx|]. apply plain_nocomma, Hx.
Qed.

Lemma allsp_nocomma a : allsp a -> nocomma a.
Proof. intros F. unfold nocomma. eapply Forall_impl; [|exact F]. intros c H. apply space_char in H. tauto. Qed.

Lemma strip_sp_word a x b : allsp a -> allsp b -> x <> [] -> nosp x -> strip (a ++ x ++ b) = x.
Proof.
  intros Fa Fb N F. unfold strip. rewrite lstrip_sp by exact Fa. rewrite lstrip_word by assumption.
  rewrite rstrip_sp by exact Fb. apply (rstrip_word [] x N F).
Qed.

(** Separated by white space only. *)
Lemma spaced_words sep l : sep <> [] -> allsp sep -> Forall plain_letter l -> words_loop [] (separated sep l) = l.
Proof.
  intros N Fs F. induction F as [|x l [Nx Hx] F IH]; [reflexivity|].
  destruct l as [|y l].
  - cbn [separated]. rewrite <- (app_nil_r x) at 1. rewrite words_word by (apply plain_nosp; exact Hx).
    cbn [app]. apply words_end; [exact Nx|constructor].
  - rewrite separated_cons by discriminate. rewrite words_word by (apply plain_nosp; exact Hx). cbn [app].
    rewrite words_next by assumption. rewrite IH. reflexivity.
Qed.

Lemma spaced_nocomma sep l : allsp sep -> Forall plain_letter l -> nocomma (separated sep l).
Proof.
  intros Fs F. induction F as [|x l [_ Hx] F IH]; [constructor|].
  destruct l as [|y l]; [cbn; apply plain_nocomma; exact Hx|].
  rewrite separated_cons by discriminate. unfold nocomma in *. apply Forall_app. split; [apply plain_nocomma; exact Hx|].
  apply Forall_app. split; [apply allsp_nocomma; exact Fs|exact IH].
Qed.

(** Separated by commas and white space. *)
Lemma comma_pieces a b l : allsp a -> allsp b -> Forall plain_letter l -> l <> [] -> forall p, allsp p ->
  map strip (split_commas [] (p ++ separated (a ++ ","%char :: b) l)) = l.
Proof.
  intros Fa Fb F. induction F as [|x l [Nx Hx] F IH]; [congruence|]. intros _ p Fp.
  destruct l as [|y l].
  - cbn [separated]. rewrite commas_word.
    + cbn [app map]. pose proof (strip_sp_word p x [] Fp (Forall_nil _) Nx (plain_nosp x Hx)) as S.
      rewrite app_nil_r in S. rewrite S. reflexivity.
    + unfold nocomma. apply Forall_app. split; [apply allsp_nocomma; exact Fp|apply plain_nocomma; exact Hx].
  - rewrite separated_cons by discriminate.
    replace (p ++ x ++ (a ++ ","%char :: b) ++ separated (a ++ ","%char :: b) (y :: l))
      with ((p ++ x ++ a) ++ ","%char :: (b ++ separated (a ++ ","%char :: b) (y :: l))) by (rewrite <- !app_assoc; reflexivity).
    rewrite commas_next.
    + cbn [app map]. rewrite strip_sp_word; [|exact Fp|exact Fa|exact Nx|apply plain_nosp; exact Hx].
      rewrite IH; [reflexivity|discriminate|exact Fb].
    + unfold nocomma. apply Forall_app. split; [apply allsp_nocomma; exact Fp|]. apply Forall_app.
      split; [apply plain_nocomma; exact Hx|apply allsp_nocomma; exact Fa].
Qed.

Lemma flat_words l : Forall plain_letter l -> flat_map (words_loop []) l = l.
Proof.
  induction 1 as [|x l [Nx Hx] F IH]; [reflexivity|]. cbn [flat_map]. rewrite IH.
  rewrite <- (app_nil_r x) at 1. rewrite words_word by (apply plain_nosp; exact Hx). cbn [app].
  rewrite words_end; [reflexivity|exact Nx|constructor].
Qed.

Lemma no_empty l : Forall plain_letter l -> existsb empty_text l = false.
Proof. induction 1 as [|x l [Nx _] F IH]; [reflexivity|]. cbn. rewrite IH. destruct x; [congruence|reflexivity]. Qed.

Section Names.
Context {N : NameOps}.

Theorem names_separated sep l : l <> [] -> separator sep -> Forall plain_letter l ->
  sympy_names (separated sep l) = Ok (false, l).
Proof.
  intros Nl S F. unfold sympy_names.
  rewrite no_special_mem by (apply separated_nospecial; [apply sep_nospecial; exact S|exact F]).
  rewrite separated_strip by assumption. rewrite separated_comma by assumption.
  destruct (separated_head sep l Nl F) as (c & s & E & _).
  replace (empty_text (separated sep l)) with false by (rewrite E; reflexivity). clear c s E.
  destruct S as [Ns [Fs|(a & b & -> & Fa & Fb)]].
  - rewrite commas_word by (apply spaced_nocomma; assumption). cbn [app map existsb flat_map].
    rewrite separated_strip by assumption. destruct (separated_head sep l Nl F) as (c & s & E & _).
    replace (empty_text (separated sep l)) with false by (rewrite E; reflexivity). cbn [orb].
    rewrite spaced_words by assumption. rewrite app_nil_r. reflexivity.
  - pose proof (comma_pieces a b l Fa Fb F Nl [] (Forall_nil _)) as P. cbn [app] in P. rewrite P.
    rewrite no_empty by exact F. rewrite flat_words by exact F. reflexivity.
Qed.

Lemma names_one x : plain_letter x -> sympy_names x = Ok (false, [x]).
Proof.
  intros H. apply (names_separated (chars " ") [x]); [discriminate| |constructor; [exact H|constructor]].
  split; [discriminate|]. left. constructor; [reflexivity|constructor].
Qed.

Lemma join_separated l : join_words l = separated (chars " ") l.
Proof. induction l as [|x [|y l] IH]; [reflexivity|reflexivity|]. change (join_words (x :: y :: l)) with (x ++ " "%char :: join_words (y :: l)). rewrite IH. reflexivity. Qed.

Lemma blank : separator (chars " ").
Proof. split; [discriminate|]. left. constructor; [reflexivity|constructor]. Qed.

(** *** str_symbols *)
Lemma sub_rstrip (P : ascii -> Prop) s : Forall P s -> Forall P (rstrip s).
Proof. intros F. destruct (rstrip_split s) as (a & _ & E). rewrite E in F. apply Forall_app in F. tauto. Qed.
Lemma sub_strip (P : ascii -> Prop) s : Forall P s -> Forall P (strip s).
Proof.
  intros F. destruct (strip_split s) as (a & b & _ & _ & E). rewrite E in F. apply Forall_app in F.
  destruct F as [_ F]. apply Forall_app in F. tauto.
Qed.
Lemma sub_removelast (P : ascii -> Prop) s : Forall P s -> Forall P (removelast s).
Proof. induction 1 as [|c s H F IH]; [constructor|]. cbn. destruct s; [constructor|]. constructor; assumption. Qed.

Lemma words_nonempty s : forall w, w <> [] \/ (exists c, In c s /\ is_space c = false) -> words_loop w s <> [].
Proof.
  induction s as [|c s IH]; intros w H; cbn [words_loop].
  - destruct H as [H|[c [[] _]]]. destruct w; [congruence|discriminate].
  - destruct (is_space c) eqn:E.
    + destruct w; [|discriminate]. apply IH. right. destruct H as [H|[d [[->|I] Hd]]]; [congruence|congruence|].
      exists d. split; assumption.
    + apply IH. left. destruct w; discriminate.
Qed.

Lemma strip_nonempty s : strip s <> [] -> exists c, In c (strip s) /\ is_space c = false.
Proof.
  intros H. unfold strip in *. destruct (rev (lstrip s)) as [|c r] eqn:E.
  - destruct H. unfold rstrip. rewrite E. reflexivity.
  - assert (G : forall q, lstrip q <> [] -> exists c, In c (lstrip q) /\ is_space c = false).
    { clear. induction q as [|c q IH]; intros H; [destruct H; reflexivity|]. cbn in *. destruct (is_space c) eqn:E.
      - apply IH, H.
      - exists c. split; [left; reflexivity|exact E]. }
    unfold rstrip in *. destruct (G (rev (lstrip s))) as (d & I & Hd).
    { intros Z. apply H. rewrite Z. reflexivity. }
    exists d. split; [|exact Hd]. apply -> in_rev. exact I.
Qed.

Lemma flat_map_ne {X Y} (f : X -> list Y) l : l <> [] -> Forall (fun x => f x <> []) l -> flat_map f l <> [].
Proof. intros H F. destruct F as [|x l Hx F]; [congruence|]. cbn. destruct (f x); [congruence|discriminate]. Qed.

Theorem names_plain s b l : no_special s -> sympy_names s = Ok (b, l) -> l <> [] /\ Forall plain_letter l.
Proof.
  intros F H. unfold sympy_names in H. rewrite no_special_mem in H by exact F.
  set (t := if ends_with_comma (strip s) then rstrip (removelast (strip s)) else strip s) in *.
  assert (Ft : no_special t).
  { unfold t, no_special. destruct (ends_with_comma (strip s)); [apply sub_rstrip, sub_removelast|]; apply sub_strip; exact F. }
  destruct (empty_text t) eqn:Et; [discriminate H|].
  destruct (existsb empty_text (map strip (split_commas [] t))) eqn:Ee; [discriminate H|].
  assert (Fe : Forall (fun x => x <> []) (map strip (split_commas [] t))).
  { apply Forall_forall. intros x I E. subst x. assert (X : existsb empty_text (map strip (split_commas [] t)) = true).
    { apply existsb_exists. exists []. split; [exact I|reflexivity]. } congruence. }
  injection H as _ H. subst l. split.
  - apply flat_map_ne.
    + intros Z. apply map_eq_nil in Z. exact (commas_ne _ _ Z).
    + apply Forall_forall. intros x I. rewrite Forall_forall in Fe. pose proof (Fe x I) as Nx.
      apply in_map_iff in I. destruct I as (y & <- & _). apply words_nonempty. right. apply strip_nonempty. exact Nx.
  - apply Forall_flat_map. apply Forall_forall. intros x I. apply in_map_iff in I. destruct I as (y & <- & I).
    pose proof (commas_good t [] (Forall_nil _)) as C1. rewrite Forall_forall in C1. pose proof (C1 y I) as C2.
    pose proof (commas_chars _ t [] (Forall_nil _) Ft) as C3. rewrite Forall_forall in C3. pose proof (C3 y I) as C4.
    pose proof (words_good (strip y) [] (Forall_nil _)) as W1.
    pose proof (words_chars _ (strip y) [] (Forall_nil _) (sub_strip _ _ C2)) as W2.
    pose proof (words_chars _ (strip y) [] (Forall_nil _) (sub_strip _ _ C4)) as W3.
    rewrite Forall_forall in *. intros z Iz. destruct (W1 z Iz) as [Z1 Z2]. split; [exact Z1|].
    pose proof (W2 z Iz) as Z3. pose proof (W3 z Iz) as Z4. cbv beta in Z3, Z4. unfold nosp in Z2.
    rewrite Forall_forall in *. intros c Ic. split; [exact (Z2 c Ic)|]. split; [exact (Z3 c Ic)|exact (Z4 c Ic)].
Qed.

Theorem str_symbols_again s t : no_special s -> str_symbols (AText s) = Ok t ->
  str_symbols (AText t) = Ok t /\ sympy_symbols_seq t = sympy_symbols_seq s /\
  exists l, sympy_symbols_seq s = Ok l /\ l <> [] /\ Forall plain_letter l /\ t = separated (chars " ") l.
Proof.
  intros F H. unfold str_symbols, sympy_symbols_seq in *. destruct (sympy_names s) as [[b l]|e] eqn:E; [|discriminate H].
  cbn in H. injection H as <-. destruct (names_plain s b l F E) as [Nl Fl]. rewrite join_separated.
  rewrite names_separated by (try assumption; exact blank). cbn. rewrite join_separated. split; [reflexivity|].
  split; [reflexivity|]. exists l. split; [reflexivity|]. split; [exact Nl|]. split; [exact Fl|reflexivity].
Qed.

(** *** Setting the letters *)
Lemma text_eqb_spec a b : text_eqb a b = true <-> a = b.
Proof. unfold text_eqb. destruct (list_eq_dec ascii_dec a b); split; intros; try congruence; discriminate. Qed.

Lemma small_lower s : small_letters s = lower s.
Proof. apply map_ext. intros [[] [] [] [] [] [] [] []]; vm_compute; reflexivity. Qed.

Lemma not_keyword s : ~ keyword s -> text_eqb (lower s) (chars "automatic") = false /\
  text_eqb (lower s) (chars "greek") = false /\ text_eqb (lower s) (chars "english") = false.
Proof.
  intros H. unfold keyword in H. rewrite small_lower in H. repeat split; match goal with |- ?x = false => destruct x eqn:E; [|reflexivity] end;
  apply text_eqb_spec in E; tauto.
Qed.

Lemma lower_sep c : lower_char c = " "%char \/ lower_char c = ","%char \/ is_space (lower_char c) = true <->
  c = " "%char \/ c = ","%char \/ is_space c = true.
Proof.
  destruct c as [[] [] [] [] [] [] [] []]; vm_compute; split; intros [H|[H|H]];
  try discriminate H; try (left; reflexivity); try (right; left; reflexivity); right; right; reflexivity.
Qed.

Lemma keyword_chars s : keyword s -> Forall (fun c => c <> ","%char /\ is_space c = false) s.
Proof.
  intros H. assert (G : Forall (fun c => c <> ","%char /\ is_space c = false) (lower s)).
  { unfold keyword in H. rewrite small_lower in H. destruct H as [H|[H|H]]; rewrite H; cbv [chars list_ascii_of_string]; repeat (apply Forall_cons; [split; [discriminate|reflexivity]|]); constructor. }
  unfold lower in G. rewrite Forall_map in G. eapply Forall_impl; [|exact G]. cbv beta. intros c [H1 H2].
  destruct (lower_sep c) as [_ L]. split.
  - intros ->. apply H1. reflexivity.
  - destruct (is_space c) eqn:E; [|reflexivity]. destruct (L (or_intror (or_intror eq_refl))) as [L'|[L'|L']]; [|congruence|congruence].
    rewrite L' in H2. discriminate H2.
Qed.

Lemma separated_not_keyword sep l : 2 <= length l -> separator sep -> ~ keyword (separated sep l).
Proof.
  intros Hl [Ns S] K. apply keyword_chars in K. destruct l as [|x [|y l]]; [cbn in Hl; lia|cbn in Hl; lia|].
  rewrite separated_cons in K by discriminate. apply Forall_app in K. destruct K as [_ K]. apply Forall_app in K.
  destruct K as [K _]. destruct S as [S|(a & b & -> & _ & _)].
  - destruct sep as [|c sep]; [congruence|]. inv K. inv S. destruct H1. congruence.
  - apply Forall_app in K. destruct K as [_ K]. inv K. destruct H1. congruence.
Qed.

Lemma set_letters_same l o : same_but_letters o (set_letters l o).
Proof. repeat split. Qed.

Lemma set_separated sep l o : 2 <= length l -> separator sep -> Forall plain_letter l ->
  set_index_letters (AText (separated sep l)) o = (Ok tt, set_letters (Tuple l) o).
Proof.
  intros Hl S F. unfold set_index_letters. destruct (not_keyword _ (separated_not_keyword sep l Hl S)) as (-> & -> & ->).
  unfold assign_letters, sympy_symbols. rewrite names_separated; [|destruct l; [cbn in Hl; lia|discriminate]|exact S|exact F].
  cbn. destruct l as [|x [|y l]]; [cbn in Hl; lia|cbn in Hl; lia|reflexivity].
Qed.

(** *** Labels *)
Lemma mark_text o k x : k = 1%Z \/ k = (-1)%Z -> mark o k x = index_text (opt_latex o) k (shown o x).
Proof. intros [->| ->]; unfold mark, index_text; cbn; destruct (opt_latex o); reflexivity. Qed.

Lemma marks_ok o l indices : config indices -> forall i, i + length indices <= length l ->
  marks o l indices i = Ok (concat (map (fun kx => index_text (opt_latex o) (fst kx) (shown o (snd kx))) (combine indices (skipn i l)))).
Proof.
  induction 1 as [|k indices Hk F IH]; intros i Hi; [reflexivity|]. cbn [length] in Hi. cbn [marks].
  replace ((k =? -1)%Z || (k =? 1)%Z) with true by (destruct Hk as [->| ->]; reflexivity).
  destruct (nth_error l i) as [x|] eqn:E.
  - rewrite IH by lia. cbn [rbind]. f_equal.
    assert (S : skipn i l = x :: skipn (S i) l).
    { clear -E. revert l E. induction i as [|i IH]; intros [|y l] E; cbn in E; try discriminate E; [injection E as ->; reflexivity|]. cbn [skipn]. apply IH, E. }
    rewrite S. cbn [combine map concat fst snd]. rewrite mark_text by exact Hk. reflexivity.
  - apply nth_error_None in E. lia.
Qed.

Lemma marks_short o l indices : config indices -> forall i, i <= length l -> length l < i + length indices ->
  marks o l indices i = Err EIndexError.
Proof.
  induction 1 as [|k indices Hk F IH]; intros i Hi Hl; cbn [length] in Hl; [lia|]. cbn [marks].
  replace ((k =? -1)%Z || (k =? 1)%Z) with true by (destruct Hk as [->| ->]; reflexivity).
  destruct (nth_error l i) as [x|] eqn:E; [|reflexivity].
  cbn [rbind]. assert (i < length l) by (apply nth_error_Some; congruence). rewrite IH by lia. reflexivity.
Qed.

Lemma combine_firstn {X Y} (a : list X) (b : list Y) : combine a (firstn (length a) b) = combine a b.
Proof. revert b. induction a as [|x a IH]; intros [|y b]; try reflexivity. cbn. rewrite IH. reflexivity. Qed.

Theorem label_ok o s l indices : opt_letters o = Tuple l -> config indices ->
  (length indices <= length l -> eq_symbol o s (length indices) indices = Ok (label_text (opt_latex o) s l indices)) /\
  (length l < length indices -> eq_symbol o s (length indices) indices = Err EIndexError).
Proof.
  intros E F. unfold eq_symbol. rewrite E. split; intros H.
  - rewrite marks_ok; [|exact F|rewrite firstn_length; lia]. cbn [rbind skipn]. rewrite combine_firstn.
    unfold label_text, shown. destruct s; reflexivity.
  - rewrite marks_short; [reflexivity|exact F|lia|rewrite firstn_length; lia].
Qed.

Theorem letters_work sep l o : 2 <= length l -> separator sep -> Forall plain_letter l ->
  exists o', set_index_letters (AText (separated sep l)) o = (Ok tt, o') /\ opt_letters o' = Tuple l /\ same_but_letters o o' /\
  forall s indices, config indices ->
    (length indices <= length l -> eq_symbol o' s (length indices) indices = Ok (label_text (opt_latex o) s l indices)) /\
    (length l < length indices -> eq_symbol o' s (length indices) indices = Err EIndexError).
Proof.
  intros Hl S F. exists (set_letters (Tuple l) o). split; [apply set_separated; assumption|]. split; [reflexivity|].
  split; [apply set_letters_same|]. intros s indices C. exact (label_ok (set_letters (Tuple l) o) s l indices eq_refl C).
Qed.

Definition english_letters : list text := words_loop [] english.
Definition greek_letter_names : list text := words_loop [] greek.

Lemma english_names_ok : sympy_symbols english = Ok (Tuple english_letters).
Proof. vm_compute. reflexivity. Qed.
Lemma greek_names_ok : sympy_symbols greek = Ok (Tuple greek_letter_names).
Proof. vm_compute. reflexivity. Qed.

Fixpoint distinct (l : list text) : bool :=
  match l with [] => true | x :: l' => negb (existsb (text_eqb x) l') && distinct l' end.
Lemma distinct_spec l : distinct l = true -> NoDup l.
Proof.
  induction l as [|x l IH]; intros H; [constructor|]. cbn in H. apply andb_prop in H. destruct H as [H1 H2].
  constructor; [|apply IH, H2]. intros I. apply negb_true_iff in H1. assert (X : existsb (text_eqb x) l = true).
  { apply existsb_exists. exists x. split; [exact I|]. apply text_eqb_spec. reflexivity. } congruence.
Qed.

Theorem keywords_work s o : keyword s ->
  exists o' l, set_index_letters (AText s) o = (Ok tt, o') /\ same_but_letters o o' /\ opt_letters o' = Tuple l /\ NoDup l /\
    (small_letters s = chars "greek" -> l = map chars greek_names) /\
    (small_letters s <> chars "greek" -> l = map chars english_names /\ exists d, default_options = Ok d /\ opt_letters d = Tuple l).
Proof.
  unfold keyword. rewrite small_lower. intros K. unfold set_index_letters, default_options, assign_letters. rewrite english_names_ok, greek_names_ok.
  destruct K as [K|[K|K]]; rewrite K.
  - exists (set_letters (Tuple english_letters) o), english_letters. split; [reflexivity|]. split; [apply set_letters_same|].
    split; [reflexivity|]. split; [apply distinct_spec; vm_compute; reflexivity|]. split; [discriminate|]. intros _.
    split; [reflexivity|]. eexists. split; [reflexivity|reflexivity].
  - exists (set_letters (Tuple greek_letter_names) o), greek_letter_names. split; [reflexivity|]. split; [apply set_letters_same|].
    split; [reflexivity|]. split; [apply distinct_spec; vm_compute; reflexivity|]. split; [reflexivity|]. congruence.
  - exists (set_letters (Tuple english_letters) o), english_letters. split; [reflexivity|]. split; [apply set_letters_same|].
    split; [reflexivity|]. split; [apply distinct_spec; vm_compute; reflexivity|]. split; [discriminate|]. intros _.
    split; [reflexivity|]. eexists. split; [reflexivity|reflexivity].
Qed.

(** One letter *)
Theorem one_letter x o : plain_letter x -> ~ keyword x ->
  exists o', set_index_letters (AText x) o = (Ok tt, o') /\ same_but_letters o o' /\
  (forall s r indices, eq_symbol o' s r indices = Err ETypeError) /\
  (forall s r xs indices pos, component_label o' s r xs indices pos = Err ETypeError).
Proof.
  intros H K. exists (set_letters (One x) o). unfold set_index_letters. destruct (not_keyword x K) as (-> & -> & ->).
  unfold assign_letters, sympy_symbols. rewrite names_one by exact H. split; [reflexivity|]. split; [apply set_letters_same|].
  split; reflexivity.
Qed.

(** The same letter with a comma is a tuple of one letter. *)
Theorem one_letter_comma x o : plain_letter x ->
  set_index_letters (AText (x ++ chars ",")) o = (Ok tt, set_letters (Tuple [x]) o).
Proof.
  intros [Nx Hx]. unfold set_index_letters.
  assert (K : ~ keyword (x ++ chars ",")).
  { intros K. apply keyword_chars in K. apply Forall_app in K. destruct K as [_ K]. inv K. destruct H1. congruence. }
  destruct (not_keyword _ K) as (-> & -> & ->). clear K. unfold assign_letters, sympy_symbols, sympy_names.
  rewrite no_special_mem by (unfold no_special; apply Forall_app; split; [apply plain_nospecial; exact Hx|constructor; [split; discriminate|constructor]]).
  assert (S : strip (x ++ chars ",") = x ++ chars ",").
  { unfold strip. rewrite lstrip_word; [|exact Nx|apply plain_nosp; exact Hx]. apply rstrip_word; [discriminate|].
    constructor; [reflexivity|constructor]. }
  rewrite S. assert (E : ends_with_comma (x ++ chars ",") = true) by (unfold ends_with_comma; rewrite rev_app_distr; reflexivity).
  rewrite E. replace (removelast (x ++ chars ",")) with x by (symmetry; apply removelast_last).
  pose proof (rstrip_word [] x Nx (plain_nosp x Hx)) as R. cbn [app] in R. rewrite R.
  replace (empty_text x) with false by (destruct x; [congruence|reflexivity]).
  rewrite commas_word by (apply plain_nocomma; exact Hx). cbn [app map existsb flat_map].
  pose proof (strip_sp_word [] x [] (Forall_nil _) (Forall_nil _) Nx (plain_nosp x Hx)) as S'. cbn [app] in S'. rewrite app_nil_r in S'.
  rewrite S'. replace (empty_text x) with false by (destruct x; [congruence|reflexivity]). cbn [orb].
  pose proof (flat_words [x]) as W. cbn [flat_map] in W. rewrite app_nil_r in *. rewrite W by (constructor; [split; assumption|constructor]).
  reflexivity.
Qed.

Theorem one_letter_tuple x o : plain_letter x ->
  exists o', set_index_letters (AText (x ++ chars ",")) o = (Ok tt, o') /\ same_but_letters o o' /\ opt_letters o' = Tuple [x].
Proof. intros H. exists (set_letters (Tuple [x]) o). split; [apply one_letter_comma, H|]. split; [apply set_letters_same|reflexivity]. Qed.

(** *** Labels tell configurations apart *)
Lemma index_text_ne latex k x : index_text latex k x <> [].
Proof. unfold index_text. destruct latex; discriminate. Qed.

Lemma marks_inj o l : forall indices indices' i t, config indices -> config indices' ->
  marks o l indices i = Ok t -> marks o l indices' i = Ok t -> indices = indices'.
Proof.
  assert (U : forall k indices i t, k = 1%Z \/ k = (-1)%Z -> marks o l (k :: indices) i = Ok t ->
    exists x r, nth_error l i = Some x /\ marks o l indices (S i) = Ok r /\ t = index_text (opt_latex o) k (shown o x) ++ r).
  { intros k indices i t Hk H. cbn [marks] in H. replace ((k =? -1)%Z || (k =? 1)%Z) with true in H by (destruct Hk as [->| ->]; reflexivity).
    destruct (nth_error l i) as [x|]; [|discriminate H]. cbn [rbind] in H. destruct (marks o l indices (S i)) as [r|]; [|discriminate H].
    cbn [rbind] in H. injection H as <-. exists x, r. rewrite mark_text by exact Hk. repeat split. }
  induction indices as [|k indices IH]; intros [|k' indices'] i t C C' H H'.
  - reflexivity.
  - inv C'. destruct (U _ _ _ _ H2 H') as (x & r & _ & _ & ->). cbn in H. injection H as H. symmetry in H. apply app_eq_nil in H.
    destruct H as [H _]. destruct (index_text_ne _ _ _ H).
  - inv C. destruct (U _ _ _ _ H2 H) as (x & r & _ & _ & ->). cbn in H'. injection H' as H'. symmetry in H'. apply app_eq_nil in H'.
    destruct H' as [H' _]. destruct (index_text_ne _ _ _ H').
  - inv C. inv C'. destruct (U _ _ _ _ H2 H) as (x & r & Ex & Er & Et). destruct (U _ _ _ _ H4 H') as (x' & r' & Ex' & Er' & Et').
    rewrite Ex in Ex'. injection Ex' as <-. rewrite Et in Et'.
    assert (k = k').
    { destruct H2 as [->| ->], H4 as [->| ->]; try reflexivity; unfold index_text in Et'; destruct (opt_latex o); discriminate Et'. }
    subst k'. f_equal. apply app_inv_head in Et'. subst r'. exact (IH _ _ _ H3 H5 Er Er').
Qed.

Theorem labels_differ o s r indices indices' t : config indices -> config indices' ->
  eq_symbol o s r indices = Ok t -> eq_symbol o s r indices' = Ok t -> indices = indices'.
Proof.
  intros C C' H H'. unfold eq_symbol in *. destruct (opt_letters o) as [l|x]; [|discriminate H].
  destruct (marks o (firstn r l) indices 0) as [m|] eqn:E; [|discriminate H]. destruct (marks o (firstn r l) indices' 0) as [m'|] eqn:E'; [|discriminate H'].
  cbn [rbind] in *. injection H as H. injection H' as H'. rewrite <- H in H'. apply app_inv_head in H'. subst m'.
  exact (marks_inj _ _ _ _ _ _ C C' E E').
Qed.

(** *** Labels of components *)
Lemma gap_cut (a b : text) : forall u v,
  (forall p q, a <> p ++ "{"%char :: " "%char :: q) -> (forall p q, b <> p ++ "{"%char :: " "%char :: q) ->
  a ++ chars "}{ }" ++ u = b ++ chars "}{ }" ++ v -> a = b /\ u = v.
Proof.
  revert b. induction a as [|c a IH]; intros b u v Ha Hb E.
  - destruct b as [|d b]; [cbn in E; injection E as E; split; [reflexivity|exact E]|]. exfalso.
    cbn in E. injection E as E1 E. destruct b as [|d2 b]; [cbn in E; discriminate E|]. cbn in E. injection E as E2 E.
    destruct b as [|d3 b]; [cbn in E; discriminate E|]. cbn in E. injection E as E3 E.
    apply (Hb [d] b). subst. reflexivity.
  - destruct b as [|d b].
    + exfalso. cbn in E. injection E as E1 E. destruct a as [|d2 a]; [cbn in E; discriminate E|]. cbn in E. injection E as E2 E.
      destruct a as [|d3 a]; [cbn in E; discriminate E|]. cbn in E. injection E as E3 E. apply (Ha [c] a). subst. reflexivity.
    + cbn [app] in E. injection E as E1 E. subst d. destruct (IH b u v) as [-> ->]; [| |exact E|split; reflexivity].
      * intros p q Z. apply (Ha (c :: p) q). rewrite Z. reflexivity.
      * intros p q Z. apply (Hb (c :: p) q). rewrite Z. reflexivity.
Qed.

(** The rest of a plain label is empty or begins with an underscore or a circumflex. *)
Definition starts (u : text) : Prop := match u with [] => True | c :: _ => c = "_"%char \/ c = "^"%char end.

Lemma plain_cut (a b : text) : forall u v,
  Forall (fun c => c <> "_"%char /\ c <> "^"%char) a -> Forall (fun c => c <> "_"%char /\ c <> "^"%char) b ->
  starts u -> starts v -> a ++ u = b ++ v -> a = b /\ u = v.
Proof.
  revert b. induction a as [|c a IH]; intros b u v Fa Fb Su Sv E.
  - destruct b as [|d b]; [split; [reflexivity|exact E]|]. cbn in E. subst u. inv Fb. cbn in Su. tauto.
  - destruct b as [|d b].
    + cbn in E. subst v. inv Fa. cbn in Sv. tauto.
    + cbn in E. injection E as E1 E. subst d. inv Fa. inv Fb. destruct (IH b u v) as [-> ->]; try assumption. split; reflexivity.
Qed.

Lemma position_step o xs k indices p pos t : k = 1%Z \/ k = (-1)%Z -> position_marks o xs (k :: indices) (p :: pos) = Ok t ->
  exists x r, nth_error xs p = Some x /\ position_marks o xs indices pos = Ok r /\ t = index_text (opt_latex o) k (shown o x) ++ r.
Proof.
  intros Hk H. cbn [position_marks] in H. replace ((k =? -1)%Z || (k =? 1)%Z) with true in H by (destruct Hk as [->| ->]; reflexivity).
  destruct (nth_error xs p) as [x|]; [|discriminate H]. cbn [rbind] in H. destruct (position_marks o xs indices pos) as [r|]; [|discriminate H].
  cbn [rbind] in H. injection H as <-. exists x, r. rewrite mark_text by exact Hk. repeat split.
Qed.

Lemma position_starts o xs : opt_latex o = false -> forall indices pos t, config indices -> length pos = length indices ->
  position_marks o xs indices pos = Ok t -> starts t.
Proof.
  intros P indices pos t C Hl H. destruct C as [|k indices Hk C].
  - cbn in H. injection H as <-. exact I.
  - destruct pos as [|p pos]; [discriminate Hl|]. destruct (position_step _ _ _ _ _ _ _ Hk H) as (x & r & _ & _ & ->).
    rewrite P. unfold index_text. cbn. destruct (k =? -1)%Z; [left|right]; reflexivity.
Qed.

Lemma nodup_nth_map {X Y} (f : X -> Y) l p q x y : NoDup (map f l) -> nth_error l p = Some x -> nth_error l q = Some y -> f x = f y -> p = q.
Proof.
  intros ND Hp Hq E. assert (Hp' : nth_error (map f l) p = Some (f x)) by (rewrite nth_error_map, Hp; reflexivity).
  assert (Hq' : nth_error (map f l) q = Some (f y)) by (rewrite nth_error_map, Hq; reflexivity).
  apply (proj1 (NoDup_nth_error (map f l)) ND); [apply nth_error_Some; congruence|congruence].
Qed.

Lemma positions_inj o xs : NoDup (map (shown o) xs) -> Forall (fun x => apart_name (opt_latex o) (shown o x)) xs ->
  forall indices pos pos' t, config indices -> length pos = length indices -> length pos' = length indices ->
  position_marks o xs indices pos = Ok t -> position_marks o xs indices pos' = Ok t -> pos = pos'.
Proof.
  intros ND F. rewrite Forall_forall in F. induction indices as [|k indices IH]; intros pos pos' t C Hl Hl' H H'.
  - destruct pos; [|discriminate Hl]. destruct pos'; [|discriminate Hl']. reflexivity.
  - destruct pos as [|p pos]; [discriminate Hl|]. destruct pos' as [|p' pos']; [discriminate Hl'|].
    cbn in Hl, Hl'. injection Hl as Hl. injection Hl' as Hl'. inv C.
    destruct (position_step _ _ _ _ _ _ _ H2 H) as (x & r & Ex & Er & Et).
    destruct (position_step _ _ _ _ _ _ _ H2 H') as (x' & r' & Ex' & Er' & Et').
    rewrite Et in Et'. pose proof (F x (nth_error_In _ _ Ex)) as Ax. pose proof (F x' (nth_error_In _ _ Ex')) as Ax'.
    assert (E : shown o x = shown o x' /\ r = r').
    { destruct (opt_latex o) eqn:P; cbn [apart_name] in Ax, Ax'.
      - unfold index_text in Et'. cbn [app] in Et'. injection Et' as Et'. rewrite <- !app_assoc in Et'. apply gap_cut in Et'; assumption.
      - unfold index_text in Et'. cbn [app] in Et'. injection Et' as Et'. apply plain_cut in Et'; try assumption.
        + exact (position_starts _ _ P _ _ _ H3 Hl Er).
        + exact (position_starts _ _ P _ _ _ H3 Hl' Er'). }
    destruct E as [E1 <-]. rewrite (nodup_nth_map _ _ _ _ _ _ ND Ex Ex' E1). f_equal. exact (IH _ _ _ H3 Hl Hl' Er Er').
Qed.

Theorem component_labels_differ o s r xs indices pos pos' t : NoDup (map (shown o) xs) ->
  Forall (fun x => apart_name (opt_latex o) (shown o x)) xs -> config indices ->
  length pos = length indices -> length pos' = length indices ->
  component_label o s r xs indices pos = Ok t -> component_label o s r xs indices pos' = Ok t -> pos = pos'.
Proof.
  intros ND F C Hl Hl' H H'. unfold component_label in *. destruct (eq_symbol o s r []) as [e|]; [|discriminate H].
  cbn [rbind] in *. destruct (position_marks o xs indices pos) as [m|] eqn:E; [|discriminate H].
  destruct (position_marks o xs indices pos') as [m'|] eqn:E'; [|discriminate H']. cbn [rbind] in *.
  injection H as H. injection H' as H'. rewrite <- H in H'. apply app_inv_head in H'. subst m'.
  exact (positions_inj o xs ND F _ _ _ _ C Hl Hl' E E').
Qed.

(** *** Sessions of setters *)
Lemma assign_fail s o : fst (assign_letters s o) <> Ok tt -> snd (assign_letters s o) = o.
Proof. unfold assign_letters. destruct (sympy_symbols s); cbn; congruence. Qed.

Lemma call_fail c o : fst (run_call c o) <> Ok tt -> snd (run_call c o) = o.
Proof.
  destruct c as [a|a|a|a|a| |]; cbn [run_call].
  - destruct a; cbn; congruence.
  - unfold set_list_per_line, set_number. destruct a as [|[]|z|s|x|]; cbn; try congruence. destruct (z <? 0)%Z; cbn; congruence.
  - unfold set_font_size, set_number. destruct a as [|[]|z|s|x|]; cbn; try congruence. destruct (z <? 0)%Z; cbn; congruence.
  - destruct a as [| | |s| |]; cbn [set_index_letters fst snd]; try congruence.
    destruct (text_eqb _ _); [apply assign_fail|]. destruct (text_eqb _ _); [apply assign_fail|].
    destruct (text_eqb _ _); apply assign_fail.
  - destruct a as [| | |s| |]; cbn [set_curve_parameter fst snd]; try congruence.
    destruct (text_eqb _ _); [cbn; congruence|]. destruct (sympy_symbols_seq s) as [[|x l]|e]; cbn; congruence.
  - cbn. congruence.
  - cbn. congruence.
Qed.

Lemma assign_keeps s o : same_but_letters o (snd (assign_letters s o)).
Proof. unfold assign_letters. destruct (sympy_symbols s); repeat split. Qed.

Lemma letters_keep a o : same_but_letters o (snd (set_index_letters a o)).
Proof.
  destruct a as [| | |s| |]; cbn [set_index_letters]; try (repeat split).
  all: destruct (text_eqb (lower s) (chars "automatic")); [apply assign_keeps|];
       destruct (text_eqb (lower s) (chars "greek")); [apply assign_keeps|];
       destruct (text_eqb (lower s) (chars "english")); apply assign_keeps.
Qed.

Lemma parameter_keeps a o : exists p, snd (set_curve_parameter a o) = set_parameter p o.
Proof.
  assert (Z : o = set_parameter (opt_parameter o) o) by (destruct o; reflexivity).
  destruct a as [| | |s|x|]; cbn [set_curve_parameter]; try (exists (opt_parameter o); exact Z); try (eexists; reflexivity).
  destruct (text_eqb _ _); [eexists; reflexivity|]. destruct (sympy_symbols_seq s) as [[|x l]|e];
  [exists (opt_parameter o); exact Z|eexists; reflexivity|exists (opt_parameter o); exact Z].
Qed.

Lemma call_effect c o :
  opt_per_line (snd (run_call c o)) = match per_line_of c with Some n => n | None => opt_per_line o end /\
  opt_font_size (snd (run_call c o)) = match font_size_of c with Some n => n | None => opt_font_size o end /\
  opt_parallel (snd (run_call c o)) = match parallel_of c with Some n => n | None => opt_parallel o end /\
  opt_latex (snd (run_call c o)) = match latex_of c with Some n => n | None => opt_latex o end /\
  ((forall a, c <> CallLetters a) -> opt_letters (snd (run_call c o)) = opt_letters o) /\
  ((forall a, c <> CallParameter a) -> opt_parameter (snd (run_call c o)) = opt_parameter o).
Proof.
  destruct c as [a|a|a|a|a| |]; cbn [run_call per_line_of font_size_of parallel_of latex_of].
  - destruct a as [|b| | | |]; repeat split; intros; reflexivity.
  - unfold set_list_per_line, set_number. destruct a as [|[]|z|s|x|]; cbn; try (repeat split). all: destruct (z <? 0)%Z; repeat split.
  - unfold set_font_size, set_number. destruct a as [|[]|z|s|x|]; cbn; try (repeat split). all: destruct (z <? 0)%Z; repeat split.
  - destruct (letters_keep a o) as (H1 & H2 & H3 & H4 & H5). repeat split; try assumption; [intros H; destruct (H a eq_refl)|intros _; assumption].
  - destruct (parameter_keeps a o) as [p ->]. repeat split. intros H. destruct (H a eq_refl).
  - repeat split.
  - repeat split.
Qed.

Theorem session_values l : forall o,
  opt_per_line (run_calls l o) = last_value per_line_of (opt_per_line o) l /\
  opt_font_size (run_calls l o) = last_value font_size_of (opt_font_size o) l /\
  opt_parallel (run_calls l o) = last_value parallel_of (opt_parallel o) l /\
  opt_latex (run_calls l o) = last_value latex_of (opt_latex o) l /\
  ((forall a, ~ In (CallLetters a) l) -> opt_letters (run_calls l o) = opt_letters o) /\
  ((forall a, ~ In (CallParameter a) l) -> opt_parameter (run_calls l o) = opt_parameter o).
Proof.
  induction l as [|c l IH]; intros o; [repeat split|]. cbn [run_calls fold_left last_value].
  change (fold_left (fun o c => snd (run_call c o)) l (snd (run_call c o))) with (run_calls l (snd (run_call c o))).
  destruct (IH (snd (run_call c o))) as (H1 & H2 & H3 & H4 & H5 & H6).
  destruct (call_effect c o) as (E1 & E2 & E3 & E4 & E5 & E6).
  rewrite H1, H2, H3, H4, E1, E2, E3, E4. repeat split.
  - intros H. rewrite H5 by (intros a I; apply (H a); right; exact I). apply E5. intros a ->. apply (H a). left. reflexivity.
  - intros H. rewrite H6 by (intros a I; apply (H a); right; exact I). apply E6. intros a ->. apply (H a). left. reflexivity.
Qed.

Lemma defaults_there : exists o, default_options = Ok o.
Proof. unfold default_options. rewrite english_names_ok. eexists. reflexivity. Qed.
Theorem session_defaults l o : default_options = Ok o ->
  opt_per_line (run_calls l o) = last_value per_line_of 6 l /\
  opt_font_size (run_calls l o) = last_value font_size_of 14 l /\
  opt_parallel (run_calls l o) = last_value parallel_of false l /\
  opt_latex (run_calls l o) = last_value latex_of true l /\
  ((forall a, ~ In (CallParameter a) l) -> opt_parameter (run_calls l o) = chars "lambda").
Proof.
  unfold default_options. rewrite english_names_ok. cbn [rbind]. intros H. injection H as <-.
  destruct (session_values l (mkOptions true (Tuple (map chars english_names)) (chars "lambda") 6 14 false)) as (H1 & H2 & H3 & H4 & _ & H6).
  repeat split; assumption.
Qed.


Theorem parameter_first sep l o : l <> [] -> separator sep -> Forall plain_letter l -> small_letters (separated sep l) <> chars "automatic" ->
  exists o', set_curve_parameter (AText (separated sep l)) o = (Ok tt, o') /\ hd_error l = Some (opt_parameter o').
Proof.
  intros Nl S F K. rewrite small_lower in K. unfold set_curve_parameter.
  replace (text_eqb (lower (separated sep l)) (chars "automatic")) with false
    by (symmetry; destruct (text_eqb _ _) eqn:E; [apply text_eqb_spec in E; congruence|reflexivity]).
  unfold sympy_symbols_seq. rewrite names_separated by assumption. cbn. destruct l as [|x l]; [congruence|].
  eexists. split; reflexivity.
Qed.

Theorem parameter_other (a : oarg) (o : options) :
  (forall x, a = ASymbol x -> exists o', set_curve_parameter a o = (Ok tt, o') /\ opt_parameter o' = x) /\
  (forall s, a = AText s -> small_letters s = chars "automatic" -> exists o', set_curve_parameter a o = (Ok tt, o') /\ opt_parameter o' = chars "lambda") /\
  ((forall x, a <> ASymbol x) -> (forall s, a <> AText s) -> a <> ANone -> set_curve_parameter a o = (Err ETypeError, o)).
Proof.
  split; [|split].
  - intros x ->. eexists. split; reflexivity.
  - intros s -> H. rewrite small_lower in H. cbn [set_curve_parameter]. rewrite H. eexists. split; reflexivity.
  - intros H1 H2 H3. destruct a; try reflexivity; exfalso; [apply H3|eapply H2|eapply H1]; reflexivity.
Qed.
Theorem str_symbols_other (a : oarg) : (forall s, a <> AText s) -> str_symbols a = Err ETypeError.
Proof. intros H. destruct a; try reflexivity. exfalso. eapply H. reflexivity. Qed.

End Names.
