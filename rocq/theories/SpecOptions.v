(** Vocabulary of the statements about options and labels.  Definitions only. *)
From Coq Require Import Ascii.
From Verif Require Import Base LexM InterpM OptionsM.
Import List.

(** A name without white space, commas, colons and backslashes. *)
Definition plain_char (c : ascii) : Prop :=
  is_space c = false /\ c <> ","%char /\ c <> ":"%char /\ c <> backslash.
Definition plain_letter (x : text) : Prop := x <> [] /\ Forall plain_char x.

(** A text that sympy.symbols reads without ranges and escapes. *)
Definition no_special (s : text) : Prop := Forall (fun c => c <> ":"%char /\ c <> backslash) s.

(** Texts with a separator between them. *)
Fixpoint separated (sep : text) (l : list text) : text :=
  match l with
  | [] => []
  | [x] => x
  | x :: l' => x ++ sep ++ separated sep l'
  end.

(** A separator of names: white space with at most one comma, and not nothing. *)
Definition separator (sep : text) : Prop :=
  sep <> [] /\ (Forall (fun c => is_space c = true) sep \/
    exists a b, sep = a ++ ","%char :: b /\ Forall (fun c => is_space c = true) a /\ Forall (fun c => is_space c = true) b).

(** Options that agree except for the letters. *)
Definition same_but_letters (o o' : options) : Prop :=
  opt_latex o' = opt_latex o /\ opt_parameter o' = opt_parameter o /\ opt_per_line o' = opt_per_line o /\
  opt_font_size o' = opt_font_size o /\ opt_parallel o' = opt_parallel o.

(** What a label shows for one index. *)
Definition index_text (latex : bool) (k : Z) (x : text) : text :=
  let c := if (k =? -1)%Z then "_"%char else "^"%char in
  if latex then c :: chars "{" ++ x ++ chars "}{ }" else c :: x.

Definition label_text {N : NameOps} (latex : bool) (s : text) (xs : list text) (indices : list Z) : text :=
  let show x := if latex then latex_symbol x else x in
  match s with [] => if latex then chars "\square" else chars "T" | _ => show s end
  ++ concat (map (fun kx => index_text latex (fst kx) (show (snd kx))) (combine indices xs)).

Definition config (l : list Z) : Prop := Forall (fun k => k = 1%Z \/ k = (-1)%Z) l.

(** The names of coordinates keep apart in a label: without underscores and circumflexes, or, as
    LaTeX, without an opening brace before a space. *)
Definition apart_name (latex : bool) (x : text) : Prop :=
  if latex then forall a b, x <> a ++ "{"%char :: " "%char :: b else Forall (fun c => c <> "_"%char /\ c <> "^"%char) x.

(** A text with small letters in place of the capital ones. *)
Definition small_letter (c : ascii) : ascii :=
  match find (fun p => Ascii.eqb (fst p) c)
    (combine (chars "ABCDEFGHIJKLMNOPQRSTUVWXYZ") (chars "abcdefghijklmnopqrstuvwxyz")) with
  | Some p => snd p
  | None => c
  end.
Definition small_letters (s : text) : text := map small_letter s.

(** The letters of the key words. *)
Definition english_names : list string :=
  ["a"; "b"; "c"; "d"; "e"; "f"; "g"; "h"; "i"; "j"; "k"; "l"; "m"; "n"; "o"; "p"; "q"; "r"; "s"; "t"; "u"; "v"; "w"; "x"; "y"; "z"]%string.
Definition greek_names : list string :=
  ["mu"; "nu"; "rho"; "sigma"; "kappa"; "lambda"; "alpha"; "beta"; "gamma"; "delta"; "epsilon"; "zeta"; "theta";
   "iota"; "xi"; "pi"; "tau"; "phi"; "chi"; "psi"; "omega"]%string.

(** The text is one of the three key words, in small or capital letters. *)
Definition keyword (s : text) : Prop :=
  small_letters s = chars "automatic" \/ small_letters s = chars "greek" \/ small_letters s = chars "english".

(** The calls that set options, and a session of them; a call that raises does not end it. *)
Inductive ocall : Set :=
| CallParallel (a : oarg) | CallPerLine (a : oarg) | CallFontSize (a : oarg) | CallLetters (a : oarg)
| CallParameter (a : oarg) | CallJupyter | CallCommandLine.

Definition run_call {N : NameOps} (c : ocall) : osetter :=
  match c with
  | CallParallel a => set_parallelization a
  | CallPerLine a => set_list_per_line a
  | CallFontSize a => set_font_size a
  | CallLetters a => set_index_letters a
  | CallParameter a => set_curve_parameter a
  | CallJupyter => jupyter_support
  | CallCommandLine => command_line_support
  end.

Definition run_calls {N : NameOps} (l : list ocall) (o : options) : options :=
  fold_left (fun o c => snd (run_call c o)) l o.

(** The value of the last call of a session to which [f] gives one. *)
Fixpoint last_value {X} (f : ocall -> option X) (x : X) (l : list ocall) : X :=
  match l with
  | [] => x
  | c :: l' => last_value f (match f c with Some y => y | None => x end) l'
  end.

(** The number an argument stands for, if it is one and not negative. *)
Definition number (a : oarg) : option nat :=
  match a with
  | ABool b => Some (if b then 1 else 0)
  | AInt z => if (z <? 0)%Z then None else Some (Z.to_nat z)
  | _ => None
  end.
Definition per_line_of (c : ocall) : option nat := match c with CallPerLine a => number a | _ => None end.
Definition font_size_of (c : ocall) : option nat := match c with CallFontSize a => number a | _ => None end.
Definition parallel_of (c : ocall) : option bool := match c with CallParallel (ABool b) => Some b | _ => None end.
Definition latex_of (c : ocall) : option bool :=
  match c with CallJupyter => Some true | CallCommandLine => Some false | _ => None end.
