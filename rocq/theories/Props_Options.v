(** Properties of the options, of the labels and of str_symbols: C125 - C131. *)
From Coq Require Import Ascii.
From Verif Require Import Base LexM InterpM OptionsM SpecOptions Options_P Witness_Options_P.
Import List.

(** C125: names separated by white space or commas become the letters in their order; the labels
    of all objects of a rank up to their number are those of the text book, the others raise. *)
Theorem C125_letters_and_labels :
  forall (N : NameOps) (sep : text) (l : list text) (o : options),
  2 <= length l -> separator sep -> Forall plain_letter l ->
  exists o', set_index_letters (AText (separated sep l)) o = (Ok tt, o') /\ opt_letters o' = Tuple l /\ same_but_letters o o' /\
  forall s indices, config indices ->
    (length indices <= length l -> eq_symbol o' s (length indices) indices = Ok (label_text (opt_latex o) s l indices)) /\
    (length l < length indices -> eq_symbol o' s (length indices) indices = Err EIndexError).
Proof. exact (@letters_work). Qed.
Print Assumptions C125_letters_and_labels.

Example C125_hypotheses_met : 2 <= length ex_ij /\ separator (chars ", ") /\ Forall plain_letter ex_ij /\
  separated (chars ", ") ex_ij = chars "i, j, mu".
Proof. exact ex_ij_case. Qed.

(** The key words, in any mixture of small and capital letters. *)
Theorem C125_keywords :
  forall (N : NameOps) (s : text) (o : options), keyword s ->
  exists o' l, set_index_letters (AText s) o = (Ok tt, o') /\ same_but_letters o o' /\ opt_letters o' = Tuple l /\ NoDup l /\
    (small_letters s = chars "greek" -> l = map chars greek_names) /\
    (small_letters s <> chars "greek" -> l = map chars english_names /\ exists d, default_options = Ok d /\ opt_letters d = Tuple l).
Proof. exact (@keywords_work). Qed.
Print Assumptions C125_keywords.

Example C125_keyword : keyword (chars "Automatic") /\ keyword (chars "GREEK").
Proof. exact (conj (or_introl eq_refl) (or_intror (or_introl eq_refl))). Qed.

(** C126: one letter alone is accepted, and then no label of any object can be made, not even of
    a scalar; with a comma behind it it is accepted as a tuple of one letter. *)
Theorem C126_one_letter :
  forall (N : NameOps) (x : text) (o : options), plain_letter x ->
  (~ keyword x -> exists o', set_index_letters (AText x) o = (Ok tt, o') /\ same_but_letters o o' /\
    (forall s r indices, eq_symbol o' s r indices = Err ETypeError) /\
    (forall s r xs indices pos, component_label o' s r xs indices pos = Err ETypeError)) /\
  exists o', set_index_letters (AText (x ++ chars ",")) o = (Ok tt, o') /\ same_but_letters o o' /\ opt_letters o' = Tuple [x].
Proof. exact (fun N x o H => conj (fun K => one_letter x o H K) (one_letter_tuple x o H)). Qed.
Print Assumptions C126_one_letter.

Example C126_hypotheses_met : plain_letter (chars "i") /\ ~ keyword (chars "i").
Proof. exact ex_i_plain. Qed.

Theorem C126_accepted_letters_label_refuted :
  exists (N : NameOps) o s o', set_index_letters (AText s) o = (Ok tt, o') /\
  (exists t, eq_symbol o (chars "g") 2 [-1; -1]%Z = Ok t) /\
  eq_symbol o' (chars "g") 2 [-1; -1]%Z = Err ETypeError /\ eq_symbol o' (chars "R") 0 [] = Err ETypeError.
Proof. exact one_letter_witness. Qed.
Print Assumptions C126_accepted_letters_label_refuted.

Theorem C126_few_letters_refuted :
  exists (N : NameOps) o s o', set_index_letters (AText s) o = (Ok tt, o') /\
  eq_symbol o' (chars "R") 4 [1; -1; -1; -1]%Z = Err EIndexError.
Proof. exact few_letters_witness. Qed.
Print Assumptions C126_few_letters_refuted.

(** C127: whatever the letters and the output, the label of an object tells its index
    configurations apart. *)
Theorem C127_labels_tell_configurations_apart :
  forall (N : NameOps) (o : options) (s : text) (r : nat) (indices indices' : list Z) (t : text),
  config indices -> config indices' ->
  eq_symbol o s r indices = Ok t -> eq_symbol o s r indices' = Ok t -> indices = indices'.
Proof. exact (@labels_differ). Qed.
Print Assumptions C127_labels_tell_configurations_apart.

Example C127_hypotheses_met : config [1; -1]%Z /\
  eq_symbol ex_options (chars "g") 2 [1; -1]%Z = Ok (chars "g^{a}{ }_{b}{ }").
Proof. exact (conj (Forall_cons _ (or_introl eq_refl) (Forall_cons _ (or_intror eq_refl) (Forall_nil _))) eq_refl). Qed.

(** C128: the labels of list() tell the components apart if no name of a coordinate contains an
    underscore or a circumflex (as LaTeX: an opening brace before a space). *)
Theorem C128_component_labels :
  forall (N : NameOps) (o : options) (s : text) (r : nat) (xs : list text) (indices : list Z) (pos pos' : list nat) (t : text),
  NoDup (map (shown o) xs) -> Forall (fun x => apart_name (opt_latex o) (shown o x)) xs -> config indices ->
  length pos = length indices -> length pos' = length indices ->
  component_label o s r xs indices pos = Ok t -> component_label o s r xs indices pos' = Ok t -> pos = pos'.
Proof. exact (@component_labels_differ). Qed.
Print Assumptions C128_component_labels.

Example C128_hypotheses_met :
  (NoDup (map (shown ex_plain) ex_xyz) /\ Forall (fun x => apart_name (opt_latex ex_plain) (shown ex_plain x)) ex_xyz /\
   exists t, component_label ex_plain (chars "g") 2 ex_xyz [-1; -1]%Z [1; 2] = Ok t) /\
  (NoDup (map (shown ex_options) ex_xyz) /\ Forall (fun x => apart_name (opt_latex ex_options) (shown ex_options x)) ex_xyz).
Proof. exact (conj ex_xyz_apart ex_latex_apart). Qed.

Theorem C128_component_labels_refuted :
  exists (N : NameOps) o xs pos pos' t, NoDup xs /\ pos <> pos' /\
  component_label o (chars "T") 2 xs [-1; -1]%Z pos = Ok t /\ component_label o (chars "T") 2 xs [-1; -1]%Z pos' = Ok t.
Proof. exact same_label_witness. Qed.
Print Assumptions C128_component_labels_refuted.

(** C129: the text of str_symbols is read as the same symbols, and str_symbols leaves it as it is. *)
Theorem C129_str_symbols :
  forall (N : NameOps) (s t : text), no_special s -> str_symbols (AText s) = Ok t ->
  str_symbols (AText t) = Ok t /\ sympy_symbols_seq t = sympy_symbols_seq s /\
  exists l, sympy_symbols_seq s = Ok l /\ l <> [] /\ Forall plain_letter l /\ t = separated (chars " ") l.
Proof. exact (@str_symbols_again). Qed.
Print Assumptions C129_str_symbols.

Example C129_hypotheses_met : no_special ex_text /\ str_symbols (AText ex_text) = Ok (chars "x0 y z").
Proof. exact ex_text_read. Qed.

Theorem C129_only_texts : forall (N : NameOps) (a : oarg), (forall s, a <> AText s) -> str_symbols a = Err ETypeError.
Proof. exact (@str_symbols_other). Qed.
Print Assumptions C129_only_texts.

(** C130: after any session of calls, rejected ones included, every option has the value of the
    last call that gives it one; a rejected call changes nothing. *)
Theorem C130_options_of_a_session :
  forall (N : NameOps) (l : list ocall) (o : options),
  opt_per_line (run_calls l o) = last_value per_line_of (opt_per_line o) l /\
  opt_font_size (run_calls l o) = last_value font_size_of (opt_font_size o) l /\
  opt_parallel (run_calls l o) = last_value parallel_of (opt_parallel o) l /\
  opt_latex (run_calls l o) = last_value latex_of (opt_latex o) l /\
  ((forall a, ~ In (CallLetters a) l) -> opt_letters (run_calls l o) = opt_letters o) /\
  ((forall a, ~ In (CallParameter a) l) -> opt_parameter (run_calls l o) = opt_parameter o).
Proof. exact (@session_values). Qed.
Print Assumptions C130_options_of_a_session.

(** The documented default values, for a session that starts with the defaults. *)
Theorem C130_documented_defaults :
  forall (N : NameOps) (l : list ocall) (o : options), default_options = Ok o ->
  opt_per_line (run_calls l o) = last_value per_line_of 6 l /\
  opt_font_size (run_calls l o) = last_value font_size_of 14 l /\
  opt_parallel (run_calls l o) = last_value parallel_of false l /\
  opt_latex (run_calls l o) = last_value latex_of true l /\
  ((forall a, ~ In (CallParameter a) l) -> opt_parameter (run_calls l o) = chars "lambda").
Proof. exact (@session_defaults). Qed.
Print Assumptions C130_documented_defaults.
Example C130_defaults_there : forall (N : NameOps), exists o, default_options = Ok o.
Proof. exact (@defaults_there). Qed.

Theorem C130_rejected_calls :
  forall (N : NameOps) (c : ocall) (o : options), fst (run_call c o) <> Ok tt -> snd (run_call c o) = o.
Proof. exact (@call_fail). Qed.
Print Assumptions C130_rejected_calls.

Example C130_session :
  opt_per_line (run_calls [CallPerLine (AInt 4); CallPerLine (AInt (-3)); CallLetters (AText (chars ",,")); CallJupyter] ex_plain) = 4 /\
  fst (run_call (CallLetters (AText (chars ",,"))) ex_plain) = Err EValueError.
Proof. exact (conj eq_refl eq_refl). Qed.

(** The error text asks for a positive integer. *)
Theorem C130_positive_size_refuted :
  exists (N : NameOps) o o', set_font_size (AInt 0) o = (Ok tt, o') /\ opt_font_size o' = 0 /\
  exists o'', set_font_size (ABool true) o = (Ok tt, o'') /\ opt_font_size o'' = 1.
Proof. exact zero_size_witness. Qed.
Print Assumptions C130_positive_size_refuted.

(** C131: of several names given as curve parameter the first one is taken. *)
Theorem C131_first_curve_parameter :
  forall (N : NameOps) (sep : text) (l : list text) (o : options),
  l <> [] -> separator sep -> Forall plain_letter l -> small_letters (separated sep l) <> chars "automatic" ->
  exists o', set_curve_parameter (AText (separated sep l)) o = (Ok tt, o') /\ hd_error l = Some (opt_parameter o').
Proof. exact (@parameter_first). Qed.
Print Assumptions C131_first_curve_parameter.

Example C131_hypotheses_met : Forall plain_letter ex_ij /\ small_letters (separated (chars ", ") ex_ij) <> chars "automatic".
Proof. exact ex_ij_parameter. Qed.

(** A symbol is taken as it is, the key word gives lambda, and anything else is rejected. *)
Theorem C131_symbol_or_keyword :
  forall (N : NameOps) (a : oarg) (o : options),
  (forall x, a = ASymbol x -> exists o', set_curve_parameter a o = (Ok tt, o') /\ opt_parameter o' = x) /\
  (forall s, a = AText s -> small_letters s = chars "automatic" ->
     exists o', set_curve_parameter a o = (Ok tt, o') /\ opt_parameter o' = chars "lambda") /\
  ((forall x, a <> ASymbol x) -> (forall s, a <> AText s) -> a <> ANone -> set_curve_parameter a o = (Err ETypeError, o)).
Proof. exact (@parameter_other). Qed.
Print Assumptions C131_symbol_or_keyword.

Theorem C131_several_parameters_rejected_refuted :
  exists (N : NameOps) o o', set_curve_parameter (AText (chars "tau sigma")) o = (Ok tt, o') /\ opt_parameter o' = chars "tau".
Proof. exact parameter_witness. Qed.
Print Assumptions C131_several_parameters_rejected_refuted.
