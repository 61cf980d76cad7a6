(** Model of /repo/src/PyOGRe/MathematicaParser/Lexer.py and of the token classes of
    /repo/src/PyOGRe/MathematicaParser/Tokens.py.  Definitions only.

    Simplifications: the characters are the 256 of [ascii] (Python strings are Unicode;
    any other character behaves like one that is in none of the tables of Lexer.py 4-9).
    The generator of tokens is a list whose last element may be an exception: [Err e]
    in the list means that the call of next() that would produce this token raises [e].
    The three characters current, next, nnext and the iterator behind them are one list
    whose first three elements they are; None is the end of the list. *)
From Verif Require Import Base.
From Coq Require Import Ascii.
Import List.

Notation text := (list ascii).

(** Tokens.py 6-28: TokenType.  The two types with a value carry it (Token.value,
    Tokens.py 31-40); the value is None for the others. *)
Inductive token : Set :=
| TExpr (v : text) | TPlus | TMinus | TMultiply | TDivide | TPower
| TLparen | TRparen | TLbrace | TRbrace | TLcurl | TRcurl | TLassoc | TRassoc
| TArrow | TCommand | TWhitespace | TString (v : text) | TComma.

Definition chars (s : string) : text := list_ascii_of_string s.

Definition mem_char (c : ascii) (l : text) : bool := existsb (Ascii.eqb c) l.

(** Lexer.py 4: WHITESPACE = " \n\t". *)
Definition is_white (c : ascii) : bool :=
  mem_char c (" " :: "010" :: "009" :: nil)%char.
(** Lexer.py 5: DIGITS. *)
Definition is_digit (c : ascii) : bool := mem_char c (chars "0123456789").
(** Lexer.py 6: LETTERS. *)
Definition is_letter (c : ascii) : bool :=
  mem_char c (chars "abcdefghijklmnopqrstuvwxyzABCDEFGHIJKLMNOPQRSTUVWXYZ").
(** Lexer.py 7: BRACKETS. *)
Definition is_bracket (c : ascii) : bool := mem_char c (chars "()[]{}").

Definition dquote : ascii := """"%char.
Definition squote : ascii := "'"%char.
Definition backslash : ascii := "\"%char.

(** [self.current in STRING], Lexer.py 9, for one character: the third member has
    three characters and equals none. *)
Definition is_quote (c : ascii) : bool := (c =? dquote)%char || (c =? squote)%char.

(** [str(current) + str(next) + str(nnext) == QQQ] where QQQ is the text of three
    double quotes; a None among the three makes the sum different. *)
Definition triple (l : text) : bool :=
  match l with
  | a :: b :: c :: _ => (a =? dquote)%char && (b =? dquote)%char && (c =? dquote)%char
  | _ => false
  end.

(** [str(self.next) + str(self.nnext) in ASSOC], Lexer.py 8, on the list starting with
    next. *)
Definition is_assoc (l : text) : bool :=
  match l with
  | a :: b :: _ =>
      ((a =? "<")%char && (b =? "|")%char) || ((a =? "|")%char && (b =? ">")%char)
      || ((a =? "-")%char && (b =? ">")%char)
  | _ => false
  end.

(** The condition of the loop of Lexer.py 101-109, on the list starting with next. *)
Definition expr_goes_on (l : text) : bool :=
  match l with
  | n :: _ =>
      (is_digit n || is_letter n) && negb (is_white n) && negb (is_bracket n)
      && negb (is_assoc l) && negb (n =? ",")%char
  | [] => false
  end.

(** The loop of Lexer.py 101-115 followed by line 117; [dots] is decimal_count.  The
    result is expr_str with the list starting with current after it. *)
Fixpoint expr_loop (dots : nat) (acc l : text) : text * text :=
  match l with
  | [] => (acc, [])
  | c :: l' =>
      if expr_goes_on l'
      then if (c =? ".")%char
           then if Nat.ltb 0 dots then (acc ++ [c], l)
                else expr_loop (S dots) (acc ++ [c]) l'
           else expr_loop dots (acc ++ [c]) l'
      else (acc ++ [c], l)
  end.

(** Lexer.py 119-122: a leading point gets a zero before it, a trailing point a zero
    behind it. *)
Definition pad_point (v : text) : text :=
  let v := match v with c :: _ => if (c =? ".")%char then "0"%char :: v else v | [] => v end in
  match rev v with c :: _ => if (c =? ".")%char then v ++ ["0"%char] else v | [] => v end.

(** Lexer.py 94-124: generate_expr. *)
Definition generate_expr (l : text) : token * text :=
  let '(v, l') := expr_loop 0 [] l in (TExpr (pad_point v), l').

(** The loop of Lexer.py 137-144 on the list starting with current; [q] is string when
    it is one character and None when it is the three double quotes, to which next is
    never equal. *)
Fixpoint str_loop (q : option ascii) (acc l : text) : text * text :=
  match l with
  | [] => (acc, [])
  | c :: l' =>
      match l' with
      | [] => (acc, l)
      | n :: _ =>
          if negb (match q with Some d => (n =? d)%char | None => false end)
             && negb (triple l)
          then str_loop q (acc ++ [c]) l'
          else (acc, l)
      end
  end.

(** Lexer.py 126-153: generate_str.  Line 146 adds current to the text unless it is a
    quote; at the end of the input current is None, which is not in STRING, so that the
    sum raises TypeError. *)
Definition generate_str (l : text) : res (token * text) :=
  let three := triple l in
  let q := if three then None else hd_error l in
  let quotes := if three then [dquote; dquote; dquote] else firstn 1 l in
  let '(v, l2) := str_loop q quotes (skipn (if three then 3 else 1) l) in
  match l2 with
  | [] => Err ETypeError
  | c :: _ =>
      Ok (TString ((if is_quote c then v else v ++ [c]) ++ quotes),
          skipn (if three then 3 else 1) l2)
  end.

(** Lexer.py 42-92: generate_tokens from the list starting with current.  Every turn of
    the loop advances at least once (line 92), so the number of characters is fuel
    enough; [EFuel] marks a shortage, which does not happen. *)
Fixpoint lex_loop (fuel : nat) (l : text) : list (res token) :=
  match fuel with
  | O => match l with [] => [] | _ :: _ => [Err EFuel] end
  | S fuel =>
      match l with
      | [] => []
      | c :: l' =>
          let next_is (d : ascii) : bool :=
            match l' with n :: _ => (n =? d)%char | [] => false end in
          let one (t : token) := Ok t :: lex_loop fuel l' in
          let two (t : token) := Ok t :: lex_loop fuel (skipn 1 l') in
          if is_white c then one TWhitespace
          else if (c =? ".")%char || is_digit c || is_letter c then
            let '(t, l2) := generate_expr l in Ok t :: lex_loop fuel (skipn 1 l2)
          else if is_quote c || triple l then
            match generate_str l with
            | Ok (t, l2) => Ok t :: lex_loop fuel (skipn 1 l2)
            | Err e => [Err e]
            end
          else if (c =? "+")%char then one TPlus
          else if (c =? "-")%char && negb (next_is ">"%char) then one TMinus
          else if (c =? "*")%char then one TMultiply
          else if (c =? "/")%char then one TDivide
          else if (c =? "^")%char then one TPower
          else if (c =? "(")%char then one TLparen
          else if (c =? ")")%char then one TRparen
          else if (c =? "[")%char then one TLbrace
          else if (c =? "{")%char then one TLcurl
          else if (c =? "}")%char then one TRcurl
          else if (c =? "]")%char then one TRbrace
          else if (c =? "<")%char && next_is "|"%char then two TLassoc
          else if (c =? "|")%char && next_is ">"%char then two TRassoc
          else if (c =? "-")%char && next_is ">"%char then two TArrow
          else if (c =? backslash)%char then one TCommand
          else if (c =? "<")%char || (c =? ">")%char || (c =? "|")%char then
            lex_loop fuel (skipn 1 l')
          else if (c =? ",")%char then one TComma
          else [Err EException]
      end
  end.

(** Lexer(string).generate_tokens(). *)
Definition lex (l : text) : list (res token) := lex_loop (List.length l) l.
