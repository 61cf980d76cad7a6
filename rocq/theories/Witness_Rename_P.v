(** Witnesses for the statements about names and symbols. *)
From Coq Require Import Ascii.
From Verif Require Import Alg Arr Spec TensorM Inst InstCurve Ex WorldM SpecWorld ExWorld CalcM CurvM GeodM LineM InfoM CurveM ShowM Base LexM ParseM InterpM ExportM ExExport SpecSession SpecRename Arr_P.
Local Open Scope nat_scope.

(** Names that begin with g begin with h instead, and the other way round. *)
Definition swap_first (s : string) : string :=
  match s with
  | String c s' => String (if Ascii.eqb c "g" then "h" else if Ascii.eqb c "h" then "g" else c)%char s'
  | EmptyString => EmptyString
  end.
Definition swapped (s s' : string) : Prop := s' = swap_first s.

Lemma swap_twice s : swap_first (swap_first s) = s.
Proof.
  destruct s as [|c s]; [reflexivity|]. unfold swap_first. f_equal.
  destruct (Ascii.eqb_spec c "g"%char) as [->|H1]; [reflexivity|].
  destruct (Ascii.eqb_spec c "h"%char) as [->|H2]; [reflexivity|].
  destruct (Ascii.eqb_spec c "g"%char); [contradiction|]. destruct (Ascii.eqb_spec c "h"%char); [contradiction|reflexivity].
Qed.
Lemma swapped_renaming : renaming swapped.
Proof.
  unfold swapped. split.
  - intros s s' t t' -> ->. split; [congruence|]. intros H. rewrite <- (swap_twice s), H. apply swap_twice.
  - reflexivity.
  - reflexivity.
  - intros s s' x Hx ->. destruct s as [|c s]; [|reflexivity]. cbn in Hx.
    repeat (destruct Hx as [<-|Hx]; [reflexivity|]). contradiction.
Qed.
Lemma equal_renaming : renaming eq.
Proof. split; try reflexivity; [intros s s' t t' <- <-; tauto|intros s s' x _ <-; reflexivity]. Qed.

(** A session with a choice of the name of the metric and of the symbols. *)
Definition ren_calls (name s1 s2 : string) : list (@call PolyOps) :=
  [CallOp (OpCoordinates (ex_str "XY") (VSyms [2] ex_xs) (VTuple [1]%Z) (ex_str "x") []);
   CallOp (OpMetric (ex_str name) (VArr ex_g) (VObj 0) (VTuple [-1; -1]%Z) (ex_str s1));
   CallOp (OpTensor (ex_str "V") (VArr ex_vec) (VObj 1) (VObj 0) (VTuple [1]%Z) (ex_str s2));
   CallChristoffel 1; CallNorm 2; CallOp (OpName 1 (ex_str (name ++ "1"))); CallChristoffel 1].

Lemma ren_calls_alike : Forall2 (call_alike swapped) (ren_calls "g" "g" "V") (ren_calls "h" "eta" "").
Proof.
  unfold ren_calls.
  repeat first [apply Forall2_nil | apply Forall2_cons];
  first [apply alike_call; exact I | apply alike_op; constructor; first [reflexivity|exact I]].
Qed.
Lemma ren_calls_symbols : Forall2 (call_alike eq) (ren_calls "g" "g" "V") (ren_calls "g" "eta" "").
Proof.
  unfold ren_calls.
  repeat first [apply Forall2_nil | apply Forall2_cons];
  first [apply alike_call; exact I | apply alike_op; constructor; first [reflexivity|exact I]].
Qed.

(** The Christoffel symbols were computed twice, as the metric had changed its name. *)
Definition object_of (r : res (@outcome)) : option nat := match r with Ok (Object t) => Some t | _ => None end.
Lemma ren_calls_run :
  (match map object_of (fst (run_calls (ren_calls "g" "g" "V") empty_world)) with
   | [_; _; _; Some a; Some b; _; Some c] => negb (a =? b) && negb (a =? c)
   | _ => false
   end) = true.
Proof. vmtrue. Qed.

(** Two names exchanged. *)
Definition exchange (s : string) : string :=
  if String.eqb s "W" then "g Christoffel"%string else if String.eqb s "g Christoffel" then "W"%string else s.
Definition exchanged (s s' : string) : Prop := s' = exchange s.
Lemma exchange_twice s : exchange (exchange s) = s.
Proof.
  unfold exchange at 2. destruct (String.eqb_spec s "W") as [->|H1]; [reflexivity|].
  destruct (String.eqb_spec s "g Christoffel") as [->|H2]; [reflexivity|].
  unfold exchange. destruct (String.eqb_spec s "W"); [contradiction|]. destruct (String.eqb_spec s "g Christoffel"); [contradiction|reflexivity].
Qed.
Definition clash_calls (name : string) : list (@call PolyOps) :=
  [CallOp (OpCoordinates (ex_str "XY") (VSyms [2] ex_xs) (VTuple [1]%Z) (ex_str "x") []);
   CallOp (OpMetric (ex_str "g") (VArr ex_g) (VObj 0) (VTuple [-1; -1]%Z) (ex_str "g"));
   CallOp (OpTensor (ex_str name) (VArr ex_vec) (VObj 1) (VObj 0) (VTuple [1]%Z) (ex_str "T"));
   CallChristoffel 1].
Lemma clash_run :
  (match map object_of (fst (run_calls (clash_calls "W") empty_world)), map object_of (fst (run_calls (clash_calls "g Christoffel") empty_world)) with
   | [_; _; _; Some a], [_; _; _; Some b] => negb (a =? b)
   | _, _ => false
   end) = true.
Proof. vmtrue. Qed.
Lemma clash : exists R : string -> string -> Prop, exists l l' : list (@call PolyOps),
  (forall s s' t t', R s s' -> R t t' -> (s = t <-> s' = t')) /\
  R "TEMP"%string "TEMP"%string /\ R "Result"%string "Result"%string /\
  Forall2 (call_alike R) l l' /\
  fst (run_calls l empty_world) <> fst (run_calls l' empty_world).
Proof.
  exists exchanged, (clash_calls "W"), (clash_calls "g Christoffel"). split; [|split; [reflexivity|split; [reflexivity|split]]].
  - intros s s' t t' -> ->. split; [congruence|]. intros H. rewrite <- (exchange_twice s), H. apply exchange_twice.
  - unfold clash_calls.
    repeat first [apply Forall2_nil | apply Forall2_cons];
    first [apply alike_call; exact I | apply alike_op; constructor; first [reflexivity|exact I]].
  - generalize clash_run. intros H E. rewrite E in H.
    destruct (map object_of _) as [|? [|? [|? [|[b|] [|]]]]]; try discriminate H. rewrite Nat.eqb_refl in H. discriminate H.
Qed.
