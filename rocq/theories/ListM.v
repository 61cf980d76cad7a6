(** list(): BaseTensor.py 265-398, and set_list_per_line: Options.py 78-101.  Definitions only.
    Not modelled: the choice of coordinates and indices (get_components, WorldM.v), function and
    replace, the text of the labels and of the values.
    Simplification: the dictionary of groups is a list in insertion order.  A new key is never
    structurally equal to an old one, since key - component is then 0 and the component goes to
    the group of that key; this supposes finite components. *)
From Verif Require Export Arr.

Section ListM.
Context {A : AlgOps}.

(** A label: [true] for the plain symbol, [false] for the symbol with "-", and the position. *)
Notation entry := (bool * list nat)%type.
Definition groups := list (K * list entry).

(** One round of the inner loop: BaseTensor.py 320-326 and 342-348.  Both tests are made. *)
Definition match_key (key c : K) (pos : list nat) : list entry :=
  (if kisz (ksub key c) then [(true, pos)] else [])
  ++ (if kisz (kadd key c) then [(false, pos)] else []).

(** One round of the outer loop: BaseTensor.py 309-328 and 331-350. *)
Definition list_step (a : arr) (g : groups) (pos : list nat) : groups :=
  let c := aget a pos in
  if kisz c then g else
  let new_entry := forallb (fun ke => length (match_key (fst ke) c pos) =? 0) g in
  let g := map (fun ke => (fst ke, snd ke ++ match_key (fst ke) c pos)) g in
  if new_entry then g ++ [(c, [(true, pos)])] else g.

(** BaseTensor.py 303-356; [n]: the number of coordinates, [r]: the rank. *)
Definition list_groups (n r : nat) (a : arr) : groups :=
  if r =? 0 then [(aget a [], [(true, [])])]                              (* 352-356 *)
  else fold_left (list_step a) (tuples n r) [].

(** range(ceil(len(value) / num)) *)
Definition line_count (len num : nat) : res nat :=
  match num with
  | O => Err EZeroDivision
  | S k => Ok ((len + k) / num)
  end.

(** The lines of one group: BaseTensor.py 370-374.  A line is the list of its labels and tells
    whether the value is printed after it. *)
Definition group_lines {X} (num : nat) (value : list X) : res (list (list X * bool)) :=
  do m <- line_count (length value) num;
  Ok (map (fun i =>
        let stop := if num * i + num <? length value then num * i + num else length value in
        (firstn (stop - num * i) (skipn (num * i) value), length value <=? num * i + num))
      (seq 0 m)).

(** BaseTensor.py 358-390 with LaTeX output: the lines of all groups, if there are any. *)
Fixpoint list_latex (num : nat) (g : groups) : res (list (K * list (list entry * bool))) :=
  match g with
  | [] => Ok []
  | (key, value) :: g' =>
    do l <- group_lines num value;
    do r <- list_latex num g';
    Ok ((key, l) :: r)
  end.

(** Options.py 78-101: the new value of LIST_PER_LINE for an integer argument. *)
Definition set_list_per_line (number : Z) : res nat :=
  if (number <? 0)%Z then Err EValueError else Ok (Z.to_nat number).

End ListM.
