(** Model of the messages of TransformationError (/repo/src/PyOGRe/Exceptions.py 76-100) about missing
    rules, and of when they are raised (Coordinates.py 226-245 and BaseTensor.py 429-449).
    Definitions only.  WorldM.v has these methods without the messages.
    Simplifications: the cases "dimensions" and "transformation" are raised nowhere and left out;
    so are "type" and "coords", whose text has no name of a coordinate system. *)
From Verif Require Import Base LexM Arr WorldM MessageM.
Import List.
Local Open Scope nat_scope.

(** Exceptions.py 82-83, 90-91 and 99-100: str(TransformationError("rules", (a, b))) *)
Definition rules_message (a b : string) : text :=
  chars "The transformation is invalid." ++ newline ++
  chars "No coordinate transformation rule exists between " ++ chars a ++ chars " and " ++ chars b ++ chars ".".

Section TransMessageM.
Context {A : AlgOps}.

(** Coordinates.py 226-245: the message of _check_jacobians, if it raises TransformationError
    (deleted objects have no message: their attributes are gone) *)
Definition refused_jacobians (self coords : oid) (w : world) : option text :=
  match obj_of w self, obj_of w coords with
  | Some so, Some co =>
    if dmem Nat.eqb coords (o_jacs so) then None
    else if dmem Nat.eqb coords (o_trans so) then None
    else Some (rules_message (o_name so) (o_name co))
  | _, _ => None
  end.

(** BaseTensor.py 429-449: the message of change_default_coords, if the check of the rules in lines
    445-449 raises TransformationError *)
Definition refused_coords (t coords : oid) (w : world) : option text :=
  match cls_of w coords, obj_of w t with
  | Some CCoordinates, Some o =>
    match o_coords o with
    | Some c =>
      if c =? coords then None
      else match obj_of w c, obj_of w coords with
           | Some so, Some co => if dmem Nat.eqb coords (o_trans so) then None
                                 else Some (rules_message (o_name so) (o_name co))
           | _, _ => None
           end
    | None => None
    end
  | _, _ => None
  end.

End TransMessageM.
