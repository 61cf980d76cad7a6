(** Model of the number that delete_results reports (/repo/src/PyOGRe/Options.py 300-330).
    Definitions only.  WorldM.v has delete_results without the number.
    Simplifications: in a notebook the text is inside a div with the font size (321-326), which is
    left out, and so are the texts that the calls of delete display. *)
From Verif Require Import Base LexM Arr WorldM MessageM.
Import List.
Local Open Scope nat_scope.

Section ReportM.
Context {A : AlgOps}.

(** Options.py 312-316: try: delete; deleted += 1; except PermissionError: pass.  The number is
    what is added to [deleted]. *)
Definition try_count (t : oid) (silent : bool) : M nat := fun w =>
  match delete t silent w with
  | (Ok _, w') => (Ok 1, w')
  | (Err EPermissionError, w') => (Ok 0, w')
  | (Err e, w') => (Err e, w')
  end.

(** Options.py 311: if instance._name == "Result" *)
Definition if_result (body : oid -> M nat) (i : oid) : M nat :=
  let! o := getobj i in
  if String.eqb (o_name o) "Result" then body i else mret 0.

(** Options.py 310: for instance in instances, as for_instances in WorldM.v *)
Fixpoint count_instances (fuel pos deleted : nat) (body : oid -> M nat) : M nat := fun w =>
  match nth_error (insts w) pos with
  | None => (Ok deleted, w)
  | Some i =>
    match fuel with
    | 0 => (Err EFuel, w)
    | S f => (let! k := body i in count_instances f (S pos) (deleted + k) body) w
    end
  end.

(** Options.py 309: for _ in range(n) *)
Fixpoint count_times (n deleted : nat) (body : oid -> M nat) : M nat :=
  match n with
  | 0 => mret deleted
  | S n' => let! k := (fun w => count_instances (length (insts w)) 0 deleted body w) in count_times n' k body
  end.

(** Options.py 318-330 *)
Definition results_message (deleted : nat) : text :=
  chars "Deleted " ++ nat_text deleted ++ chars " tensor(s) named 'Result'.".

(** Options.py 300-330: the text displayed, None when silent *)
Definition report_results (silent : bool) : M (option text) :=
  let! k := count_times 4 0 (if_result (fun i => try_count i silent)) in
  mret (if silent then None else Some (results_message k)).

End ReportM.
