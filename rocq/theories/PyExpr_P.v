(** The printed form of an expression as Python reads it. *)
From Verif Require Import Base LexM ParseM InterpM SpecParse PyExprM SpecPy Lex_P Parse_P Value_P.
From Coq Require Import Ascii.
Import List.
Local Open Scope nat_scope.

Lemma py_alnum_eq c : py_alnum c = alnum c.
Proof. unfold py_alnum, alnum, digit, letter, code_in. symmetry. apply orb_assoc. Qed.

Fixpoint ptoks (e : exp) : list pytok :=
  let two c a b := PySign "(" :: ptoks a ++ PySign c :: ptoks b ++ [PySign ")"] in
  match e with
  | EWord v => [PyWord v]
  | EAdd a b => two "+"%char a b
  | ESub a b => two "-"%char a b
  | EMul a b | EBy a b => two "*"%char a b
  | EDiv a b => two "/"%char a b
  | EPow a b | EPowS a b => two "^"%char a b
  | ENeg a => PySign "-" :: PySign "(" :: ptoks a ++ [PySign ")"]
  | EParen a => ptoks a
  | _ => []
  end.

Definition starts_sign (l : text) : Prop := match l with [] => True | c :: _ => py_alnum c = false end.
Lemma lex_word w v l : forallb alnum v = true -> py_lex w (v ++ l) = py_lex (w ++ v) l.
Proof.
  revert w. induction v as [|c v IH]; intros w H; cbn [app]; [rewrite app_nil_r; reflexivity|].
  cbn [forallb] in H. apply andb_prop in H as [H1 H2]. cbn [py_lex]. rewrite py_alnum_eq, H1, IH by exact H2. rewrite <- app_assoc. reflexivity.
Qed.
Lemma lex_flush w l : starts_sign l -> py_lex w l = py_flush w ++ py_lex [] l.
Proof.
  destruct l as [|c l]; intros H; cbn [py_lex]; [rewrite app_nil_r; reflexivity|]. rewrite H. cbn [py_flush app]. reflexivity.
Qed.
Lemma lex_printed e : words_ok e -> arithmetic e -> forall rest, starts_sign rest -> py_lex [] (printed e ++ rest) = ptoks e ++ py_lex [] rest.
Proof.
  assert (T : forall o c a b rest, (forall rest, starts_sign rest -> py_lex [] (printed a ++ rest) = ptoks a ++ py_lex [] rest) ->
    (forall rest, starts_sign rest -> py_lex [] (printed b ++ rest) = ptoks b ++ py_lex [] rest) ->
    chars o = [" "; c; " "]%char -> py_alnum c = false -> is_space c = false ->
    py_lex [] (printed2 o (printed a) (printed b) ++ rest) = (PySign "(" :: ptoks a ++ PySign c :: ptoks b ++ [PySign ")"]) ++ py_lex [] rest).
  { intros o c a b rest Ha Hb Eo Hc Hs. unfold printed2. rewrite Eo. rewrite <- !app_assoc. cbn [chars list_ascii_of_string app].
    cbn [py_lex py_alnum]. change (py_lex [] ("("%char :: printed a ++ " "%char :: c :: " "%char :: printed b ++ ")"%char :: rest))
      with (PySign "(" :: py_lex [] (printed a ++ " "%char :: c :: " "%char :: printed b ++ ")"%char :: rest)).
    rewrite Ha by reflexivity. rewrite <- !app_assoc. cbn [app]. f_equal. f_equal.
    change (py_lex [] (" "%char :: c :: " "%char :: printed b ++ ")"%char :: rest)) with (py_lex [] (c :: " "%char :: printed b ++ ")"%char :: rest)).
    cbn [py_lex]. rewrite Hc, Hs. cbn [py_flush app]. f_equal.
    change (py_alnum " ") with false. cbn [app]. change (is_space " ") with true. cbn [app].
    rewrite Hb by reflexivity. rewrite <- app_assoc. reflexivity. }
  induction e; cbn [words_ok arithmetic printed ptoks]; intros W Ar rest Hr; try contradiction;
    try (destruct W, Ar; apply T; auto; fail).
  - destruct W as [N W]. rewrite lex_word by exact W. cbn [app]. rewrite lex_flush by exact Hr. destruct v; [congruence|reflexivity].
  - rewrite <- !app_assoc. cbn [chars list_ascii_of_string app].
    change (py_lex [] ("-"%char :: "("%char :: printed e ++ ")"%char :: rest)) with (PySign "-" :: PySign "(" :: py_lex [] (printed e ++ ")"%char :: rest)).
    rewrite IHe by (auto; reflexivity). rewrite <- app_assoc. reflexivity.
  - auto.
Qed.

Fixpoint pyx (e : exp) : pyexp :=
  match e with
  | EAdd a b => PyAdd (pyx a) (pyx b)
  | ESub a b => PySub (pyx a) (pyx b)
  | EMul a b | EBy a b => PyMul (pyx a) (pyx b)
  | EDiv a b => PyDiv (pyx a) (pyx b)
  | EPow a b | EPowS a b => PyPow (pyx a) (pyx b)
  | ENeg a => PyNeg (pyx a)
  | EParen a => pyx a
  | EWord v => PyName v
  | _ => PyName []
  end.
Notation rd e := (pyx (sign_outside e)).
Notation len := (@List.length pytok).

(** what is inside a negative *)
Fixpoint inside (e : exp) : exp := match e with ENeg a => a | EParen a => inside a | _ => e end.
Lemma negative_form e : negative e = true ->
  ptoks e = PySign "-" :: PySign "(" :: ptoks (inside e) ++ [PySign ")"] /\ sign_outside e = ENeg (sign_outside (inside e)).
Proof. induction e; cbn; try discriminate; auto. Qed.

Definition no_power (s : list pytok) : Prop := match s with PySign "^" :: _ => False | _ => True end.
Definition stops (s : list pytok) : Prop := match s with PySign c :: _ => c = ")"%char | _ => True end.
Definition good e := forall n rest, no_power rest -> 7 * len (ptoks e) <= n -> py_factor n (ptoks e ++ rest) = Some (rd e, rest).
Definition good_atom e := negative e = false -> forall n rest, 7 * len (ptoks e) <= n + 2 -> py_atom n (ptoks e ++ rest) = Some (rd e, rest).

Lemma no_power_spec s : no_power s -> (exists s', s = PySign "^" :: s') -> False.
Proof. intros H [s' ->]. exact H. Qed.
Lemma power_plain n s a rest : py_atom n s = Some (a, rest) -> no_power rest -> py_power (S n) s = Some (a, rest).
Proof.
  intros H N. cbn [py_power]. rewrite H. destruct rest as [|[v|c] rest]; try reflexivity.
  destruct c as [[|] [|] [|] [|] [|] [|] [|] [|]]; try reflexivity. exfalso. exact N.
Qed.
Lemma factor_power n s : match s with PySign c :: _ => c = "("%char | _ => True end -> py_factor (S n) s = py_power n s.
Proof. destruct s as [|[v|c] s]; intros H; try reflexivity. subst c. reflexivity. Qed.


Notation close rest := (PySign ")" :: rest).
Lemma more n k : k <= n -> exists m, n = k + m.
Proof. intros H. exists (n - k). lia. Qed.
Lemma term_single e n rest : good e -> 7 * len (ptoks e) + 1 <= n -> py_term n (ptoks e ++ close rest) = Some (rd e, close rest).
Proof.
  intros G H. assert (1 <= len (ptoks e) \/ len (ptoks e) = 0) by lia. destruct n as [|[|n]]; [lia|..].
  - assert (Z : ptoks e = []) by (destruct (ptoks e); [reflexivity|cbn [List.length] in H; lia]).
    specialize (G 0 (close rest) I ltac:(rewrite Z; cbn; lia)). discriminate G.
  - cbn [py_term]. rewrite (G (S n)) by (exact I || lia). reflexivity.
Qed.
Lemma len_pos e : good e -> 1 <= len (ptoks e).
Proof.
  intros G. destruct (ptoks e) eqn:Z; [|cbn; lia]. specialize (G 0 [] I ltac:(rewrite Z; cbn; lia)). discriminate G.
Qed.
Lemma sum_single e n rest : good e -> 7 * len (ptoks e) + 2 <= n -> py_sum n (ptoks e ++ close rest) = Some (rd e, close rest).
Proof.
  intros G H. assert (P := len_pos e G). destruct n as [|[|n]]; [lia|lia|]. cbn [py_sum]. fold py_term. rewrite term_single by (auto; lia). reflexivity.
Qed.
Lemma paren_atom e n rest : good e -> 7 * len (ptoks e) + 3 <= n -> py_atom n (PySign "(" :: ptoks e ++ close rest) = Some (rd e, rest).
Proof. intros G H. destruct n as [|n]; [lia|]. cbn [py_atom]. fold py_sum. rewrite sum_single by (auto; lia). reflexivity. Qed.

(** the sum between the parentheses of a binary operation *)
Lemma two_terms c f a b n rest : good a -> good b -> (c = "+"%char /\ f = PyAdd \/ c = "-"%char /\ f = PySub) ->
  7 * (len (ptoks a) + len (ptoks b)) + 5 <= n -> py_sum n (ptoks a ++ PySign c :: ptoks b ++ close rest) = Some (f (rd a) (rd b), close rest).
Proof.
  intros Ga Gb Hc H. assert (Pa := len_pos a Ga). assert (Pb := len_pos b Gb). destruct n as [|[|[|n]]]; try lia.
  assert (T : py_term (S (S n)) (ptoks a ++ PySign c :: ptoks b ++ close rest) = Some (rd a, PySign c :: ptoks b ++ close rest)).
  { cbn [py_term]. fold py_factor. rewrite (Ga (S n)) by (first [lia|destruct Hc as [[-> _]|[-> _]]; exact I]).
    destruct Hc as [[-> _]|[-> _]]; reflexivity. }
  change (match py_term (S (S n)) (ptoks a ++ PySign c :: ptoks b ++ close rest) with Some (a, s) => py_sum_loop (S (S n)) a s | None => None end = Some (f (rd a) (rd b), close rest)).
  rewrite T. assert (U : py_term (S n) (ptoks b ++ close rest) = Some (rd b, close rest)) by (apply term_single; auto; lia).
  destruct Hc as [[-> ->]|[-> ->]]; [change (match py_term (S n) (ptoks b ++ close rest) with Some (b, s) => py_sum_loop (S n) (PyAdd (rd a) b) s | None => None end = Some (PyAdd (rd a) (rd b), close rest)); rewrite U; reflexivity|change (match py_term (S n) (ptoks b ++ close rest) with Some (b, s) => py_sum_loop (S n) (PySub (rd a) b) s | None => None end = Some (PySub (rd a) (rd b), close rest)); rewrite U; reflexivity].
Qed.
Lemma two_factors c f a b n rest : good a -> good b -> (c = "*"%char /\ f = PyMul \/ c = "/"%char /\ f = PyDiv) ->
  7 * (len (ptoks a) + len (ptoks b)) + 5 <= n -> py_sum n (ptoks a ++ PySign c :: ptoks b ++ close rest) = Some (f (rd a) (rd b), close rest).
Proof.
  intros Ga Gb Hc H. assert (Pa := len_pos a Ga). assert (Pb := len_pos b Gb). destruct n as [|[|[|[|n]]]]; try lia.
  assert (T : py_term (S (S (S n))) (ptoks a ++ PySign c :: ptoks b ++ close rest) = Some (f (rd a) (rd b), close rest)).
  { change (match py_factor (S (S n)) (ptoks a ++ PySign c :: ptoks b ++ close rest) with Some (a, s) => py_term_loop (S (S n)) a s | None => None end = Some (f (rd a) (rd b), close rest)).
    rewrite (Ga (S (S n))) by (first [lia|destruct Hc as [[-> _]|[-> _]]; exact I]).
    assert (U : py_factor (S n) (ptoks b ++ close rest) = Some (rd b, close rest)) by (apply Gb; [exact I|lia]).
    destruct Hc as [[-> ->]|[-> ->]]; [change (match py_factor (S n) (ptoks b ++ close rest) with Some (b, s) => py_term_loop (S n) (PyMul (rd a) b) s | None => None end = Some (PyMul (rd a) (rd b), close rest)); rewrite U; reflexivity|change (match py_factor (S n) (ptoks b ++ close rest) with Some (b, s) => py_term_loop (S n) (PyDiv (rd a) b) s | None => None end = Some (PyDiv (rd a) (rd b), close rest)); rewrite U; reflexivity]. }
  change (match py_term (S (S (S n))) (ptoks a ++ PySign c :: ptoks b ++ close rest) with Some (a, s) => py_sum_loop (S (S (S n))) a s | None => None end = Some (f (rd a) (rd b), close rest)).
  rewrite T. reflexivity.
Qed.
Lemma power_here n s a b rest rest' : py_atom n s = Some (a, PySign "^" :: rest) -> py_factor n rest = Some (b, rest') -> py_power (S n) s = Some (PyPow a b, rest').
Proof.
  intros H G. change (match py_atom n s with Some (a, PySign "^" :: s) => match py_factor n s with Some (b, s) => Some (PyPow a b, s) | None => None end | r => r end = Some (PyPow a b, rest')).
  rewrite H, G. reflexivity.
Qed.
Lemma atom_head e : good e -> negative e = false -> arithmetic e -> match ptoks e with PySign c :: _ => c = "("%char | [] => False | _ => True end.
Proof. intros _. induction e; cbn; try tauto; try discriminate; auto. Qed.
Lemma power_read a b n rest : good a -> good_atom a -> (negative a = true -> good (inside a)) -> arithmetic a -> good b ->
  7 * (len (ptoks a) + len (ptoks b)) + 5 <= n ->
  py_sum n (ptoks a ++ PySign "^" :: ptoks b ++ close rest) = Some (pyx (power_of (negative a) (sign_outside a) (sign_outside b)), close rest).
Proof.
  intros Ga At In Ar Gb H. assert (Pa := len_pos a Ga). assert (Pb := len_pos b Gb). destruct n as [|[|[|[|[|n]]]]]; try lia.
  set (s := ptoks a ++ PySign "^" :: ptoks b ++ close rest).
  assert (F : py_factor (S (S (S n))) s = Some (pyx (power_of (negative a) (sign_outside a) (sign_outside b)), close rest)).
  { assert (U : forall k, 7 * len (ptoks b) <= k -> py_factor k (ptoks b ++ close rest) = Some (rd b, close rest)) by (intros k Hk; apply Gb; [exact I|exact Hk]).
    destruct (negative a) eqn:Na.
    - destruct (negative_form a Na) as [Ft Fs]. unfold s. rewrite Ft in H |- *. rewrite Fs. cbn [power_of pyx]. cbn [List.length] in H. rewrite app_length in H. cbn [List.length] in H.
      assert (G := In eq_refl). assert (Pi := len_pos _ G). destruct n as [|[|n]]; try lia.
      rewrite <- !app_comm_cons, <- app_assoc. cbn [app].
      change (match py_factor (S (S (S (S n)))) (PySign "(" :: ptoks (inside a) ++ close (PySign "^" :: ptoks b ++ close rest)) with Some (a, s) => Some (PyNeg a, s) | None => None end
        = Some (PyNeg (PyPow (rd (inside a)) (rd b)), close rest)).
      rewrite factor_power by reflexivity. erewrite (power_here _ _ (rd (inside a)) (rd b)); [reflexivity|apply paren_atom; [exact G|lia]|apply U; lia].
    - assert (Hd := atom_head a Ga Na Ar). rewrite factor_power.
      + erewrite (power_here _ _ (rd a) (rd b)); [destruct (sign_outside a); reflexivity|apply At; [exact Na|lia]|apply U; lia].
      + unfold s. destruct (ptoks a) as [|[v|c] l]; [contradiction|exact I|exact Hd]. }
  change (match match py_factor (S (S (S n))) s with Some (a, s) => py_term_loop (S (S (S n))) a s | None => None end with Some (a, s) => py_sum_loop (S (S (S (S n)))) a s | None => None end
    = Some (pyx (power_of (negative a) (sign_outside a) (sign_outside b)), close rest)).
  rewrite F. reflexivity.
Qed.

(** a binary operation between parentheses *)
Lemma two_good e t r : ptoks e = PySign "(" :: t ++ [PySign ")"] -> rd e = r -> negative e = false -> inside e = e ->
  (forall n rest, 7 * len t <= n -> py_sum n (t ++ close rest) = Some (r, close rest)) -> good e /\ good_atom e.
Proof.
  intros Et Er Ne _ H. assert (At : good_atom e).
  { intros _ n rest Hn. rewrite Et in *. cbn [List.length] in Hn. rewrite app_length in Hn. cbn [List.length] in Hn. rewrite <- app_comm_cons, <- app_assoc. cbn [app].
    destruct n as [|n]; [lia|]. change (match py_sum n (t ++ close rest) with Some (a, PySign ")" :: s) => Some (a, s) | _ => None end = Some (rd e, rest)). rewrite H by lia. rewrite Er. reflexivity. }
  split; [|exact At]. intros n rest Np Hn. assert (L : 2 <= len (ptoks e)) by (rewrite Et; cbn [List.length]; rewrite app_length; cbn; lia).
  destruct n as [|[|n]]; try lia. rewrite factor_power by (rewrite Et; reflexivity). apply power_plain; [apply At; [exact Ne|lia]|exact Np].
Qed.
Lemma all_good e : arithmetic e -> good e /\ good_atom e /\ (negative e = true -> good (inside e)).
Proof.
  induction e; cbn [arithmetic]; intros Ar; try contradiction; try (let A1 := fresh "A" in let A2 := fresh "A" in destruct Ar as [A1 A2];
    destruct (IHe1 A1) as (G1 & T1 & I1); destruct (IHe2 A2) as (G2 & T2 & I2); assert (P1 := len_pos _ G1); assert (P2 := len_pos _ G2)).
  - assert (At : good_atom (EWord v)) by (intros _ n rest Hn; destruct n; [cbn in Hn; lia|reflexivity]).
    split; [|split; [exact At|discriminate]]. intros n rest Np Hn. cbn in Hn. destruct n as [|[|[|n]]]; try lia. rewrite factor_power by exact I. apply power_plain; [reflexivity|exact Np].
  - apply and_assoc. split; [|discriminate]. apply (two_good _ (ptoks e1 ++ PySign "+" :: ptoks e2) (PyAdd (rd e1) (rd e2))); try reflexivity.
    + cbn [ptoks]. rewrite <- app_assoc. reflexivity.
    + intros n rest Hn. rewrite app_length in Hn. cbn [List.length] in Hn. rewrite <- app_assoc. cbn [app]. apply two_terms; auto. lia.
  - apply and_assoc. split; [|discriminate]. apply (two_good _ (ptoks e1 ++ PySign "-" :: ptoks e2) (PySub (rd e1) (rd e2))); try reflexivity.
    + cbn [ptoks]. rewrite <- app_assoc. reflexivity.
    + intros n rest Hn. rewrite app_length in Hn. cbn [List.length] in Hn. rewrite <- app_assoc. cbn [app]. apply two_terms; auto. lia.
  - apply and_assoc. split; [|discriminate]. apply (two_good _ (ptoks e1 ++ PySign "*" :: ptoks e2) (PyMul (rd e1) (rd e2))); try reflexivity.
    + cbn [ptoks]. rewrite <- app_assoc. reflexivity.
    + intros n rest Hn. rewrite app_length in Hn. cbn [List.length] in Hn. rewrite <- app_assoc. cbn [app]. apply two_factors; auto. lia.
  - apply and_assoc. split; [|discriminate]. apply (two_good _ (ptoks e1 ++ PySign "/" :: ptoks e2) (PyDiv (rd e1) (rd e2))); try reflexivity.
    + cbn [ptoks]. rewrite <- app_assoc. reflexivity.
    + intros n rest Hn. rewrite app_length in Hn. cbn [List.length] in Hn. rewrite <- app_assoc. cbn [app]. apply two_factors; auto. lia.
  - apply and_assoc. split; [|discriminate]. apply (two_good _ (ptoks e1 ++ PySign "^" :: ptoks e2) (rd (EPow e1 e2))); try reflexivity.
    + cbn [ptoks]. rewrite <- app_assoc. reflexivity.
    + intros n rest Hn. rewrite app_length in Hn. cbn [List.length] in Hn. rewrite <- app_assoc. cbn [app]. apply power_read; auto. lia.
  - destruct (IHe Ar) as (G & T & I1). split; [|split; [intros Ne; discriminate Ne|intros _; exact G]]. intros n rest Np Hn. cbn [ptoks List.length] in Hn. rewrite app_length in Hn. cbn [List.length] in Hn.
    assert (P := len_pos _ G). cbn [ptoks]. rewrite <- !app_comm_cons, <- app_assoc. cbn [app]. destruct n as [|[|[|n]]]; try lia.
    change (match py_factor (S (S n)) (PySign "(" :: ptoks e ++ close rest) with Some (a, s) => Some (PyNeg a, s) | None => None end = Some (PyNeg (rd e), rest)).
    rewrite factor_power by reflexivity. rewrite (power_plain n _ (rd e) rest); [reflexivity|apply paren_atom; [exact G|lia]|exact Np].
  - destruct (IHe Ar) as (G & T & I1). split; [exact G|split; [exact T|exact I1]].
  - apply and_assoc. split; [|discriminate]. apply (two_good _ (ptoks e1 ++ PySign "*" :: ptoks e2) (PyMul (rd e1) (rd e2))); try reflexivity.
    + cbn [ptoks]. rewrite <- app_assoc. reflexivity.
    + intros n rest Hn. rewrite app_length in Hn. cbn [List.length] in Hn. rewrite <- app_assoc. cbn [app]. apply two_factors; auto. lia.
  - apply and_assoc. split; [|discriminate]. apply (two_good _ (ptoks e1 ++ PySign "^" :: ptoks e2) (rd (EPowS e1 e2))); try reflexivity.
    + cbn [ptoks]. rewrite <- app_assoc. reflexivity.
    + intros n rest Hn. rewrite app_length in Hn. cbn [List.length] in Hn. rewrite <- app_assoc. cbn [app]. apply power_read; auto. lia.
Qed.

Theorem printed_read e : words_ok e -> arithmetic e -> py_parse (printed e) = Some (rd e).
Proof.
  intros W Ar. destruct (all_good e Ar) as (G & _ & _). assert (P := len_pos e G). unfold py_parse.
  assert (X := lex_printed e W Ar [] I). rewrite app_nil_r in X. rewrite X. cbn [py_lex py_flush]. rewrite app_nil_r. cbv zeta.
  pose (n := 7 * len (ptoks e)). assert (En : 7 * len (ptoks e) + 7 = S (S (n + 5))) by (unfold n; lia). rewrite En.
  assert (F : py_factor (n + 5) (ptoks e) = Some (rd e, [])) by (rewrite <- (app_nil_r (ptoks e)); apply G; [exact I|unfold n; lia]).
  change (match match match py_factor (n + 5) (ptoks e) with Some (a, s) => py_term_loop (n + 5) a s | None => None end with Some (a, s) => py_sum_loop (S (n + 5)) a s | None => None end with Some (a, []) => Some a | _ => None end = Some (rd e)).
  rewrite F. replace (n + 5) with (S (n + 4)) by lia. reflexivity.
Qed.

Lemma sign_plain e : arithmetic e -> no_negative_base e -> (negative (sign_outside e) = true -> negative e = true).
Proof.
  induction e; cbn [arithmetic no_negative_base sign_outside negative]; intros Ar H N; try discriminate; auto.
  - destruct H as (H & _). rewrite H in N. cbn in N. destruct (sign_outside e1); discriminate.
  - destruct H as (H & _). rewrite H in N. cbn in N. destruct (sign_outside e1); discriminate.
Qed.
Section Eval.
Context {O : PyOps}.
Variable wv : text -> res E.
Hypothesis Rp : forall t a, py_parse t = Some a -> o_sympify t = py_eval wv a.
Lemma Wv v : word v -> wv v = o_sympify v.
Proof. intros W. symmetry. exact (Rp v (PyName v) (printed_read (EWord v) W I)). Qed.
Lemma eval_meaning e : words_ok e -> arithmetic e -> py_eval wv (pyx e) = meaning e.
Proof.
  induction e; cbn [words_ok arithmetic pyx py_eval meaning]; intros W Ar; try contradiction; try (destruct W as [W1 W2], Ar as [A1 A2]; rewrite IHe1, IHe2 by assumption; reflexivity).
  - apply Wv, W.
  - rewrite IHe by assumption. reflexivity.
  - auto.
Qed.
Lemma power_of_words n a b : words_ok a -> words_ok b -> words_ok (power_of n a b).
Proof. destruct n, a; cbn; tauto. Qed.
Lemma power_of_arith n a b : arithmetic a -> arithmetic b -> arithmetic (power_of n a b).
Proof. destruct n, a; cbn; tauto. Qed.
Lemma outside_ok e : words_ok e -> arithmetic e -> words_ok (sign_outside e) /\ arithmetic (sign_outside e).
Proof.
  induction e; cbn [words_ok arithmetic sign_outside]; intros W Ar; try contradiction; try (destruct W as [W1 W2], Ar as [A1 A2]; specialize (IHe1 W1 A1); specialize (IHe2 W2 A2); try (cbn; tauto)).
  - cbn. tauto.
  - split; [apply power_of_words|apply power_of_arith]; tauto.
  - cbn. tauto.
  - tauto.
  - split; [apply power_of_words|apply power_of_arith]; tauto.
Qed.
Lemma outside_meaning e : arithmetic e -> no_negative_base e -> meaning (sign_outside e) = meaning e.
Proof.
  induction e; cbn [arithmetic no_negative_base sign_outside meaning]; intros Ar N; try contradiction; try (destruct Ar as [A1 A2]; destruct N as [N1 N2]; rewrite IHe1, IHe2 by assumption; reflexivity).
  - reflexivity.
  - destruct Ar as [A1 A2]; destruct N as (N0 & N1 & N2). rewrite N0. cbn [power_of]. change (power_of false (sign_outside e1) (sign_outside e2)) with (EPow (sign_outside e1) (sign_outside e2)).
    cbn [meaning]. rewrite IHe1, IHe2 by assumption. reflexivity.
  - rewrite IHe by assumption. reflexivity.
  - auto.
  - destruct Ar as [A1 A2]; destruct N as (N0 & N1 & N2). rewrite N0. change (power_of false (sign_outside e1) (sign_outside e2)) with (EPow (sign_outside e1) (sign_outside e2)).
    cbn [meaning]. rewrite IHe1, IHe2 by assumption. reflexivity.
Qed.

Theorem sympify_printed e : words_ok e -> arithmetic e -> o_sympify (printed e) = meaning (sign_outside e).
Proof.
  intros W Ar. rewrite (Rp _ _ (printed_read e W Ar)). destruct (outside_ok e W Ar) as [W' A']. apply eval_meaning; assumption.
Qed.
Lemma each_ext {X Y : Type} (f h : X -> res Y) l : (forall x, In x l -> f x = h x) -> each f l = each h l.
Proof. induction l as [|x l IH]; intros H; [reflexivity|]. cbn [each]. rewrite (H x (or_introl eq_refl)), IH by (intros y Hy; apply H; right; exact Hy). reflexivity. Qed.
Lemma all_words l : fold_right (fun x P => words_ok x /\ P) True l -> forall x, In x l -> words_ok x.
Proof. induction l as [|y l IH]; intros H x; [intros []|]. destruct H as [H1 H2]. intros [<-|Hx]; auto. Qed.

End Eval.
Section Calls.
Context {O : PyOps}.
Hypothesis Rp : reads_python O.
(** The value of a call. *)
Theorem call_value sp f a l : words_ok (ECall f a l) -> f <> chars "Derivative" -> (forall x, In x (a :: l) -> arithmetic x) ->
  settles (fun n => parse_str n (show sp 1 (ECall f a l))) (do es <- each (fun x => meaning (sign_outside x)) (a :: l); do e <- o_apply f es; Ok (VE e)).
Proof.
  intros W Nf Ar. assert (R := read_meaning sp _ W). cbn [meaning] in R.
  destruct (text_eqb f (chars "Derivative")) eqn:E. { exfalso. apply Nf. unfold text_eqb in E. destruct (list_eq_dec _ _ _); congruence. }
  assert (X : each (fun x => o_sympify (printed x)) (a :: l) = each (fun x => meaning (sign_outside x)) (a :: l)).
  { apply each_ext. intros x Hx. destruct Rp as [wv Rw]. apply (sympify_printed wv Rw); [|apply Ar, Hx]. destruct W as (_ & Wa & Wl). destruct Hx as [<-|Hx]; [exact Wa|apply (all_words l Wl x Hx)]. }
  rewrite X in R. destruct (each (fun x => meaning (sign_outside x)) (a :: l)) as [es|]; exact R.
Qed.
Theorem call_value_right sp f a l : words_ok (ECall f a l) -> f <> chars "Derivative" -> (forall x, In x (a :: l) -> arithmetic x /\ no_negative_base x) ->
  settles (fun n => parse_str n (show sp 1 (ECall f a l))) (do es <- each meaning (a :: l); do e <- o_apply f es; Ok (VE e)).
Proof.
  intros W Nf Ar. assert (R := call_value sp f a l W Nf (fun x Hx => proj1 (Ar x Hx))).
  rewrite (each_ext (fun x => meaning (sign_outside x)) meaning) in R; [exact R|]. intros x Hx. apply outside_meaning; apply Ar, Hx.
Qed.
End Calls.
