(** The information about an object: _get_info (OGReObject.py 123-136, BaseTensor.py 172-177,
    Coordinates.py 207-226, Metric.py 166-177, Tensor.py 199-204), __str__ and info()
    (OGReObject.py 69-84 and 263-292), get_instances (Options.py 292-297).  Definitions only.
    Simplifications: the values are kept as data, not as the text that is printed; a list of
    names is printed with ", " between them; the three classes of geodesic equations are one. *)
From Verif Require Import Alg Arr TensorM WorldM.

Section InfoM.
Context {A : AlgOps}.

Inductive info_value :=
| IText (s : string) | IClass (k : option cls) | INumber (n : nat) | IConfig (l : list Z) | INames (l : list string).
Definition info_dict := list (string * info_value).

(** The names of some objects: AttributeError if one of them is deleted. *)
Fixpoint names_of (l : list oid) : M (list string) :=
  match l with
  | [] => mret []
  | i :: l' => let! o := getobj i in let! r := names_of l' in mret (o_name o :: r)
  end.

(** The registered objects for which hasattr(instance, attr) and the attribute is [t]. *)
Definition users (attr : obj -> option oid) (t : oid) : M (list oid) := fun w =>
  (Ok (filter (fun i => match obj_of w i with
                        | Some o => match attr o with Some j => j =? t | None => false end
                        | None => false
                        end) (insts w)), w).

(** "if OGReObject._instances: ... info[key] = ", ".join(names)" *)
Definition users_entry (key : string) (attr : obj -> option oid) (t : oid) : M info_dict := fun w =>
  match insts w with
  | [] => (Ok [], w)
  | _ => (let! l := users attr t in let! ns := names_of l in mret [(key, INames ns)]) w
  end.

(** OGReObject.py 129-135 *)
Definition base_info (k : option cls) (o : obj) : info_dict :=
  [("Name"%string, IText (o_name o)); ("Symbol"%string, IText (o_symbol o)); ("Type"%string, IClass k);
   ("Rank"%string, INumber (o_rank o)); ("Default Indices"%string, IConfig (o_indices o))].

(** self.<attr>._name *)
Definition name_entry (key : string) (x : option oid) : M info_dict :=
  let! i := mopt EAttributeError x in let! o := getobj i in mret [(key, IText (o_name o))].

(** _get_info of the class of the object. *)
Definition get_info (t : oid) : M info_dict := fun w =>
  (let! o := getobj t in
   let base := base_info (cls_of w t) o in
   match cls_of w t with
   | Some CCoordinates =>
       let! tr := match o_trans o with
                  | [] => mret []
                  | l => let! ns := names_of (map fst l) in mret [("Coordinate Transformations"%string, INames ns)]
                  end in
       let! us := users_entry "Default Coordinates For" o_coords t in
       mret (base ++ tr ++ us)
   | Some CMetric =>
       let! c := name_entry "Default Coordinates" (o_coords o) in
       let! us := users_entry "Tensors Using This Metric" o_metric t in
       mret (base ++ c ++ us)
   | _ =>
       let! c := name_entry "Default Coordinates" (o_coords o) in
       let! m := name_entry "Metric" (o_metric o) in
       mret (base ++ c ++ m)
   end) w.

(** Options.py 32-44 *)
Definition info_order : list string :=
  ["Name"; "Symbol"; "Type"; "Rank"; "Metric"; "Default Coordinates"; "Default Indices"; "Default Coordinates For";
   "Coordinate Transformations"; "Indices Symbols"; "Tensors Using This Metric"]%string.

Fixpoint info_get (key : string) (d : info_dict) : option info_value :=
  match d with [] => None | (k, v) :: d' => if String.eqb k key then Some v else info_get key d' end.

(** The lines of info() and __str__: OGReObject.py 77-82, 281-283 and 288-291. *)
Definition info_lines (d : info_dict) : info_dict :=
  flat_map (fun key => match info_get key d with Some v => [(key, v)] | None => [] end) info_order.

Definition info (t : oid) : M info_dict := let! d := get_info t in mret (info_lines d).

End InfoM.
