(** Concrete texts with and without the entries an import needs. *)
From Coq Require Import Ascii.
From Verif Require Import Alg Arr Arr_P Spec TensorM WorldM SpecWorld LexM ParseM InterpM SpecParse ExportM SpecExport Inst Ex ExWorld ExExport Witness_World_P Witness_Export_P Witness2_Export_P Options_P SpecAnnounce Announce_P.
Import List.
Local Open Scope string_scope.
Local Open Scope list_scope.
Local Open Scope nat_scope.

Definition no_role_text : text := chars "<|""W""-><|""DefaultCoords""->""XY"",""DefaultIndices""->{1}|>|>".
Definition odd_role_text : text := chars "<|""W""-><|""Role""->""Spinor"",""DefaultCoords""->""XY""|>|>".
Definition no_components_text : text := chars "<|""W""-><|""Role""->""Tensor"",""DefaultCoords""->""XY"",""DefaultIndices""->{1}|>|>".

Definition lackb (key : string) (d : list (@val PolyPy * val)) : bool := forallb (fun p => negb (key_same (fst p) (VS (chars key)))) d.
Lemma lackb_spec key d : lackb key d = true -> forall v, ~ In (VS (chars key), v) d.
Proof.
  intros H v Hv. unfold lackb in H. rewrite forallb_forall in H. specialize (H _ Hv). cbn [fst key_same] in H. apply Bool.negb_true_iff in H.
  rewrite (proj2 (text_eqb_spec _ _) eq_refl) in H. discriminate H.
Qed.
Definition firstb (s : text) (f : list (@val PolyPy * val) -> bool) : bool :=
  match @parse_str PolyPy 400 s with
  | Ok (VD [(VS n, VD d)]) => negb (text_eqb n (chars "Options")) && f d
  | _ => false
  end.
Lemma firstb_spec s f : firstb s f = true -> exists d, @first_object PolyPy 400 s d /\ f d = true.
Proof.
  unfold firstb. destruct (@parse_str PolyPy 400 s) as [v|] eqn:E; [|discriminate]. destruct v as [| | |l|]; try discriminate.
  destruct l as [|[k v] [|? ?]]; [discriminate| |destruct k; try discriminate; destruct v; discriminate].
  destruct k as [|n| | |]; try discriminate. destruct v as [| | |d|]; try discriminate. intros H. apply andb_prop in H as [H1 H2]. exists d. split; [|exact H2].
  exists [], (VS n), []. split; [exact E|]. split; [constructor|]. intros X. apply (f_equal (fun v => match v with VS t => t | _ => [] end)) in X. cbv beta iota in X.
  rewrite X in H1. rewrite (proj2 (text_eqb_spec _ _) eq_refl) in H1. discriminate H1.
Qed.
Definition roleb (role : string) (d : list (@val PolyPy * val)) : bool :=
  match d with (VS r, VS x) :: _ => text_eqb r (chars "Role") && text_eqb x (chars role) | _ => false end.
Lemma roleb_spec role d : roleb role d = true -> exists d2, d = [] ++ (VS (chars "Role"), VS (chars role)) :: d2.
Proof.
  unfold roleb. destruct d as [|[k v] d]; [discriminate|]. destruct k as [|r| | |]; try discriminate. destruct v as [|x| | |]; try discriminate.
  intros H. apply andb_prop in H as [H1 H2]. apply text_eqb_spec in H1, H2. subst. exists d. reflexivity.
Qed.

Lemma no_role : exists d, @first_object PolyPy 400 no_role_text d /\ forall v, ~ In (VS (chars "Role"), v) d.
Proof. destruct (firstb_spec no_role_text (lackb "Role")) as (d & F & H); [vmtrue|]. exists d. split; [exact F|apply lackb_spec, H]. Qed.
Lemma odd_role : exists d1 d2, @first_object PolyPy 400 odd_role_text (d1 ++ (VS (chars "Role"), VS (chars "Spinor")) :: d2) /\ (forall v, ~ In (VS (chars "Role"), v) d1) /\ ~ In "Spinor" role_names.
Proof.
  destruct (firstb_spec odd_role_text (roleb "Spinor")) as (d & F & H); [vmtrue|]. apply roleb_spec in H as (d2 & ->). exists [], d2. split; [exact F|]. split; [intros v []|].
  unfold role_names. cbn [In]. intros H. repeat (destruct H as [H|H]; [discriminate H|]). destruct H.
Qed.
Lemma no_components : exists d1 d2, let d := d1 ++ (VS (chars "Role"), VS (chars "Tensor")) :: d2 in
  @first_object PolyPy 400 no_components_text d /\ (forall v, ~ In (VS (chars "Role"), v) d1) /\ In "Tensor" role_names /\ (forall v, ~ In (VS (chars "Components"), v) d).
Proof.
  destruct (firstb_spec no_components_text (fun d => roleb "Tensor" d && lackb "Components" d)) as (d & F & H); [vmtrue|]. apply andb_prop in H as [H1 H2].
  apply roleb_spec in H1 as (d2 & ->). exists [], d2. split; [exact F|]. split; [intros v []|]. split; [unfold role_names; cbn [In]; tauto|apply lackb_spec, H2].
Qed.
Lemma vector_exported : exists s w', export_to_string 3 ex_full_w = (Ok s, w').
Proof. destruct (out_ok (export_to_string 3) ex_full_w) as (s & w' & E & _); [vmtrue|eauto]. Qed.
Lemma all_exported : exists s w', export_all_to_string ex_full_w = (Ok s, w').
Proof. destruct (out_ok export_all_to_string ex_full_w) as (s & w' & E & _); [vmtrue|eauto]. Qed.
Lemma vector_imported : exists i w', import_from_string 400 bare_text ex_full_w = (Ok i, w').
Proof. destruct ex_bare as (d & _ & _ & H). exact H. Qed.
