(** Properties of the messages of errors.  Theorems only; proofs in Message_P.v. *)
From Verif Require Import Base LexM WorldM MessageM SpecMessage Message_P.
Import List.
Local Open Scope nat_scope.

(** C208: the message of an error about the number of indices tells how many are needed.  It does
    when a tensor is constructed, but not when its default indices are changed or its components
    are asked for: two different ranks get the same message. *)
Theorem C208_needed_number_refuted : exists l r r' m, r <> r' /\
  refused_indices l None (Some r) = Some (EIndicesDimension, m) /\ refused_indices l None (Some r') = Some (EIndicesDimension, m).
Proof. exact request_not_told. Qed.
Print Assumptions C208_needed_number_refuted.

(** The modelled refusals are those of validate_indices and validate_base. *)
Theorem C208_refused_exactly {A : AlgOps} l n src :
  validate_indices (VTuple l) n src = match refused_indices l n src with Some (e, _) => Err e | None => Ok tt end.
Proof. exact (refused_exact l n src). Qed.
Print Assumptions C208_refused_exactly.
Theorem C208_tensor_refused_exactly {A : AlgOps} name comps symbol l n a :
  (exists s, symbol = VStr s \/ symbol = VSymbol s) -> as_array comps = Some a ->
  validate_base (VStr name) comps symbol (VTuple l) n =
  match refused_shape (shape a) n, refused_indices l (Some (rank a)) None with
  | Some (ETensorDimension, _), _ => Err ETensorDimension
  | _, Some (e, _) => Err e
  | Some (e, _), None => Err e
  | None, None => Ok tt
  end.
Proof. exact (refused_tensor_exact name comps symbol l n a). Qed.
Print Assumptions C208_tensor_refused_exactly.

(** In the constructor the message has the number of indices, then the rank, and the tuple; and the
    rank can be read off it. *)
Theorem C208_constructor_message l r src : Forall (fun z => z = 1%Z \/ z = (-1)%Z) l -> r <> length l ->
  exists m, refused_indices l (Some r) src = Some (EIndicesDimension, m) /\
    says_both m (decimal (length l)) (decimal r) /\ says m (python_tuple (map integer l)) /\
    forall r' src', r' <> length l -> refused_indices l (Some r') src' = Some (EIndicesDimension, m) -> r' = r.
Proof. exact (constructor_message l r src). Qed.
Print Assumptions C208_constructor_message.

(** Elsewhere it has the tuple only. *)
Theorem C208_request_message l r : Forall (fun z => z = 1%Z \/ z = (-1)%Z) l -> r <> length l ->
  refused_indices l None (Some r) = Some (EIndicesDimension,
    list_ascii_of_string "The supplied indices (" ++ python_tuple (map integer l) ++ list_ascii_of_string ") are invalid.").
Proof. exact (request_message l r). Qed.
Print Assumptions C208_request_message.

(** Indices other than +1 and -1 are refused first, whatever their number. *)
Theorem C208_value_message l n src : ~ Forall (fun z => z = 1%Z \/ z = (-1)%Z) l ->
  exists m, refused_indices l n src = Some (EIndicesValue, m) /\ says m (python_tuple (map integer l)).
Proof. exact (value_refused l n src). Qed.
Print Assumptions C208_value_message.

(** Shapes: either every dimension is that of the coordinates, or two of them differ and the message
    has the shape, or they agree on another number and the message has both shapes. *)
Theorem C208_shape_message sh n :
  (forall d, In d sh -> d = n) /\ refused_shape sh n = None \/
  (exists m, (exists d d', In d sh /\ In d' sh /\ d <> d') /\ refused_shape sh n = Some (ETensorDimension, m) /\ says m (python_tuple (map decimal sh))) \/
  (exists m d, sh <> [] /\ (forall d', In d' sh -> d' = d) /\ d <> n /\ refused_shape sh n = Some (ETensorCoordinates, m) /\
     says_both m (python_tuple (map decimal sh)) (python_tuple [decimal n])).
Proof. exact (shape_refused sh n). Qed.
Print Assumptions C208_shape_message.

Example ex_C208_needed : option_map (fun p => string_of_list_ascii (snd p)) (refused_indices [1; -1]%Z None (Some 12)) = Some "The supplied indices ((1, -1)) are invalid."%string.
Proof. reflexivity. Qed.
Example ex_C208_constructor : Forall (fun z => z = 1%Z \/ z = (-1)%Z) [1; -1]%Z /\ 12 <> length [1; -1]%Z /\
  option_map fst (refused_indices [1; -1]%Z (Some 12) None) = Some EIndicesDimension /\ decimal 12 = list_ascii_of_string "12".
Proof. split; [repeat (apply Forall_cons; auto)|]. split; [discriminate|]. split; reflexivity. Qed.
Example ex_C208_value : ~ Forall (fun z => z = 1%Z \/ z = (-1)%Z) [1; -17]%Z /\ python_tuple (map integer [1; -17]%Z) = list_ascii_of_string "(1, -17)" /\
  python_tuple (map integer [0]%Z) = list_ascii_of_string "(0,)".
Proof. split; [|split; reflexivity]. intros H. apply Forall_inv_tail, Forall_inv in H. destruct H; discriminate. Qed.
Example ex_C208_shapes :
  option_map (fun p => string_of_list_ascii (snd p)) (refused_shape [4; 3] 4) = Some "Tensor components must have uniform shape, got (4, 3), which is not uniform."%string /\
  option_map (fun p => string_of_list_ascii (snd p)) (refused_shape [3; 3] 4) = Some "Tensor components must have the same dimensions (3, 3) as the coordinates (4,)."%string /\
  refused_shape [] 4 = None.
Proof. repeat split; reflexivity. Qed.
