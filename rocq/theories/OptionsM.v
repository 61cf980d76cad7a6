(** Options and labels: Options.py 21-267, OGReObject._eq_symbol (OGReObject.py 138-165), the
    labels of list() (BaseTensor.py 309-317 and 331-339), Utils.str_symbols (Utils.py 16-37).
    Definitions only.

    Simplifications: a text is a list of characters of code below 256; a Symbol is its name;
    what a setter displays is left out, since it changes nothing.  sympy.symbols is written out
    for texts without ':' and '\'; what it does with ranges and escaped characters is an oracle,
    as is the LaTeX code of a symbol. *)
From Coq Require Import Ascii.
From Verif Require Import Base LexM InterpM.
Import List.

(** Oracles: sympy.symbols for a text with ':' or '\' ([bool]: the result is a tuple even if it
    has one member), and sympy.latex of a symbol. *)
Class NameOps := {
  special_symbols : text -> res (bool * list text);
  latex_symbol : text -> text
}.

(** The value of sympy.symbols: a tuple of symbols or one symbol. *)
Inductive letters : Set := Tuple (l : list text) | One (x : text).

(** The options that the modelled functions use or set: Options.py 27-47 without INFO_ORDER. *)
Record options := mkOptions {
  opt_latex : bool;
  opt_letters : letters;
  opt_parameter : text;
  opt_per_line : nat;
  opt_font_size : nat;
  opt_parallel : bool
}.

(** An argument of a setter. *)
Inductive oarg : Set := ANone | ABool (b : bool) | AInt (z : Z) | AText (s : text) | ASymbol (x : text)
  | AOther.

(** str.strip and str.rstrip. *)
Fixpoint lstrip (s : text) : text :=
  match s with c :: s' => if is_space c then lstrip s' else s | [] => [] end.
Definition rstrip (s : text) : text := rev (lstrip (rev s)).
Definition strip (s : text) : text := rstrip (lstrip s).

(** str.split(','). *)
Fixpoint split_commas (w s : text) : list text :=
  match s with
  | [] => [w]
  | c :: s' => if (c =? ",")%char then w :: split_commas [] s' else split_commas (w ++ [c]) s'
  end.

Definition ends_with_comma (s : text) : bool :=
  match rev s with c :: _ => (c =? ",")%char | [] => false end.

Definition empty_text (s : text) : bool := match s with [] => true | _ => false end.

(** str.lower for one character of code below 128. *)
Definition lower_char (c : ascii) : ascii :=
  let n := nat_of_ascii c in if (65 <=? n) && (n <=? 90) then ascii_of_nat (n + 32) else c.
Definition lower (s : text) : text := map lower_char s.

Section OptionsM.
Context {N : NameOps}.

(** sympy.symbols(names) as tuple flag and names. *)
Definition sympy_names (s : text) : res (bool * list text) :=
  if mem_char ":" s || mem_char backslash s then special_symbols s else
  let s := strip s in
  let as_seq := ends_with_comma s in
  let s := if as_seq then rstrip (removelast s) else s in
  if empty_text s then Err EValueError else
  let names := map strip (split_commas [] s) in
  if existsb empty_text names then Err EValueError else
  Ok (as_seq, flat_map (words_loop []) names).

(** sympy.symbols(names, seq=True). *)
Definition sympy_symbols_seq (s : text) : res (list text) := do r <- sympy_names s; Ok (snd r).

(** sympy.symbols(names). *)
Definition sympy_symbols (s : text) : res letters :=
  do r <- sympy_names s;
  match r with
  | (false, [x]) => Ok (One x)
  | (_, l) => Ok (Tuple l)
  end.

(** Utils.py 16-37 *)
Definition str_symbols (names : oarg) : res text :=
  match names with
  | AText s => do l <- sympy_symbols_seq s; Ok (join_words l)
  | _ => Err ETypeError
  end.

Definition english : text := chars "a b c d e f g h i j k l m n o p q r s t u v w x y z".
Definition greek : text := chars
  "mu nu rho sigma kappa lambda alpha beta gamma delta epsilon zeta theta iota xi pi tau phi chi psi omega".

Definition set_latex b o := mkOptions b (opt_letters o) (opt_parameter o) (opt_per_line o) (opt_font_size o) (opt_parallel o).
Definition set_letters l o := mkOptions (opt_latex o) l (opt_parameter o) (opt_per_line o) (opt_font_size o) (opt_parallel o).
Definition set_parameter p o := mkOptions (opt_latex o) (opt_letters o) p (opt_per_line o) (opt_font_size o) (opt_parallel o).
Definition set_per_line n o := mkOptions (opt_latex o) (opt_letters o) (opt_parameter o) n (opt_font_size o) (opt_parallel o).
Definition set_size n o := mkOptions (opt_latex o) (opt_letters o) (opt_parameter o) (opt_per_line o) n (opt_parallel o).
Definition set_parallel b o := mkOptions (opt_latex o) (opt_letters o) (opt_parameter o) (opt_per_line o) (opt_font_size o) b.

(** A statement that may raise, with the options it leaves. *)
Definition osetter := options -> res unit * options.

(** Options.py 27-47 *)
Definition default_options : res options :=
  do l <- sympy_symbols english; Ok (mkOptions true l (chars "lambda") 6 14 false).

(** Options.py 53-75; the argument must be a bool. *)
Definition set_parallelization (a : oarg) : osetter := fun o =>
  match a with
  | ANone => (Ok tt, o)
  | ABool b => (Ok tt, set_parallel b o)
  | _ => (Err ETypeError, o)
  end.

(** isinstance(number, int) with its value: a bool is an int. *)
Definition as_int (a : oarg) : option Z :=
  match a with ABool b => Some (if b then 1 else 0)%Z | AInt z => Some z | _ => None end.

(** Options.py 78-101 and 104-125. *)
Definition set_number (put : nat -> options -> options) (a : oarg) : osetter := fun o =>
  match a, as_int a with
  | ANone, _ => (Ok tt, o)
  | _, None => (Err ETypeError, o)
  | _, Some z => if (z <? 0)%Z then (Err EValueError, o) else (Ok tt, put (Z.to_nat z) o)
  end.
Definition set_list_per_line := set_number set_per_line.
Definition set_font_size := set_number set_size.

(** options.ALL_SYMBOLS = sympy.symbols(s): nothing is assigned if it raises. *)
Definition assign_letters (s : text) : osetter := fun o =>
  match sympy_symbols s with
  | Ok l => (Ok tt, set_letters l o)
  | Err e => (Err e, o)
  end.

(** Options.py 128-208 *)
Definition set_index_letters (a : oarg) : osetter := fun o =>
  match a with
  | ANone => (Ok tt, o)
  | AText s =>
      if text_eqb (lower s) (chars "automatic") then assign_letters english o
      else if text_eqb (lower s) (chars "greek") then assign_letters greek o
      else if text_eqb (lower s) (chars "english") then assign_letters english o
      else assign_letters s o
  | _ => (Err ETypeError, o)
  end.

(** Options.py 211-259.  Line 247 takes the first symbol of the tuple. *)
Definition set_curve_parameter (a : oarg) : osetter := fun o =>
  match a with
  | ANone => (Ok tt, o)
  | AText s =>
      if text_eqb (lower s) (chars "automatic") then (Ok tt, set_parameter (chars "lambda") o)
      else match sympy_symbols_seq s with
           | Ok (x :: _) => (Ok tt, set_parameter x o)
           | Ok [] => (Err EIndexError, o)
           | Err e => (Err e, o)
           end
  | ASymbol x => (Ok tt, set_parameter x o)
  | _ => (Err ETypeError, o)
  end.

(** Options.py 270-281 *)
Definition jupyter_support : osetter := fun o => (Ok tt, set_latex true o).
Definition command_line_support : osetter := fun o => (Ok tt, set_latex false o).

(** A symbol in the chosen form: sympy.latex or str. *)
Definition shown (o : options) (x : text) : text := if opt_latex o then latex_symbol x else x.

(** One index of a label: OGReObject.py 149-153, 157-161, BaseTensor.py 313-316, 335-338. *)
Definition mark (o : options) (index : Z) (x : text) : text :=
  let put (c : string) := if opt_latex o then chars c ++ chars "{" ++ shown o x ++ chars "}{ }"
                          else chars c ++ shown o x in
  if (index =? -1)%Z then put "_"%string else if (index =? 1)%Z then put "^"%string else [].

(** The loops over the indices: [x] is the letter for the next position.  A letter is only looked
    up for an index +1 or -1. *)
Fixpoint marks (o : options) (l : list text) (indices : list Z) (i : nat) : res text :=
  match indices with
  | [] => Ok []
  | k :: indices' =>
      do x <- (if (k =? -1)%Z || (k =? 1)%Z
               then match nth_error l i with Some x => Ok (mark o k x) | None => Err EIndexError end
               else Ok []);
      do r <- marks o l indices' (S i);
      Ok (x ++ r)
  end.

(** OGReObject.py 138-165: the label of an object with symbol [s] and rank [r].  The slice of a
    single symbol is a TypeError, whatever the rank. *)
Definition eq_symbol (o : options) (s : text) (r : nat) (indices : list Z) : res text :=
  match opt_letters o with
  | One _ => Err ETypeError
  | Tuple l =>
      do m <- marks o (firstn r l) indices 0;
      Ok ((if empty_text s then (if opt_latex o then chars "\square" else chars "T") else shown o s) ++ m)
  end.

(** The label of one component in list(): BaseTensor.py 311-316 and 333-338; [xs]: the names of
    the coordinates, [pos]: the position. *)
Fixpoint position_marks (o : options) (xs : list text) (indices : list Z) (pos : list nat) : res text :=
  match indices, pos with
  | [], _ => Ok []
  | _ :: _, [] => Err EIndexError
  | k :: indices', p :: pos' =>
      do x <- (if (k =? -1)%Z || (k =? 1)%Z
               then match nth_error xs p with Some x => Ok (mark o k x) | None => Err EIndexError end
               else Ok []);
      do y <- position_marks o xs indices' pos';
      Ok (x ++ y)
  end.
Definition component_label (o : options) (s : text) (r : nat) (xs : list text) (indices : list Z)
  (pos : list nat) : res text :=
  do e <- eq_symbol o s r [];
  do m <- position_marks o xs indices pos;
  Ok (e ++ m).

End OptionsM.
