(** Show and list of the coordinates of ExWorld.v. *)
From Coq Require Import Ascii String.
From Verif Require Import Alg Arr Arr_P Spec TensorM WorldM SpecWorld LexM InterpM OptionsM SpecOptions ShowM SpecShow CoordShowM Inst ExWorld Witness_World_P Witness_Options_P.
Import List.
Local Open Scope nat_scope.

Definition coordsb (w : @world PolyOps) (t : oid) (xs : list string) (s : string) : bool :=
  match obj_of w t with
  | Some o => (o_rank o =? 1) && (if list_eq_dec Z.eq_dec (o_indices o) [1]%Z then true else false) &&
      (if list_eq_dec string_dec (o_syms o) xs then true else false) && String.eqb (o_symbol o) s
  | None => false
  end.
Lemma coordsb_spec w t xs s : coordsb w t xs s = true ->
  exists o, obj_of w t = Some o /\ o_rank o = 1 /\ o_indices o = [1]%Z /\ o_syms o = xs /\ o_symbol o = s.
Proof.
  unfold coordsb. destruct (obj_of w t) as [o|]; [|discriminate]. intros H. apply andb_prop in H as [H H3]. apply andb_prop in H as [H H2]. apply andb_prop in H as [H H1].
  apply Nat.eqb_eq in H. apply String.eqb_eq in H3. destruct (list_eq_dec Z.eq_dec (o_indices o) [1]%Z); [|discriminate]. destruct (list_eq_dec string_dec (o_syms o) xs); [|discriminate].
  exists o. auto.
Qed.
Lemma ex_coordinates_s : exists o, obj_of ex_w 0 = Some o /\ o_rank o = 1 /\ o_indices o = [1]%Z /\ o_syms o = ["x"; "y"]%string /\ o_symbol o = "x"%string.
Proof. apply coordsb_spec. vmtrue. Qed.
Lemma ex_coordinates : exists o, obj_of ex_w 0 = Some o /\ o_rank o = 1 /\ o_indices o = [1]%Z /\ o_syms o = ["x"; "y"]%string /\ NoDup (o_syms o).
Proof.
  destruct ex_coordinates_s as (o & H1 & H2 & H3 & H4 & _). exists o. rewrite H4. do 4 (split; [assumption || reflexivity|]).
  repeat constructor; cbn; intuition discriminate.
Qed.
Lemma ex_displayed : exists b,
  coordinates_show ex_plain 0 ex_w = (Ok (chars "x^a", b), ex_w) /\
  coordinates_list ex_plain 0 ex_w = (Ok [(chars "x^x", chars "x"); (chars "x^y", chars "y")], ex_w).
Proof.
  destruct ex_coordinates_s as (o & H1 & H2 & H3 & H4 & H5). eexists. unfold coordinates_show, coordinates_list, mbind, getobj. rewrite H1, H2, H3, H4, H5. split; reflexivity.
Qed.
