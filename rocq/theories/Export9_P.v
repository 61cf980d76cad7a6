(** Proofs about import: the symbol of what is made. *)
From Verif Require Import Base LexM ParseM InterpM SpecParse Term2_P Value_P WorldM SpecWorld World_P
  Registry_P Run_P Alg Arr Arr_P Typed_P ExportM SpecExport Export_P Export2_P Export3_P Export4_P Export7_P.
From Coq Require Import Ascii.
Import List.

Section Export9.
Context {A : AlgOps} {O : PyOps} {C : CodeOps}.

Lemma construct_symbol k kw w i w' : construct k kw w = (Ok i, w') ->
  exists o, w' = fresh_world w k o /\ i = length (heap w) /\ WorldM.o_symbol o = sym_of (symbol_arg k kw).
Proof.
  unfold construct. intros E.
  assert (T : forall k', new_tensor_as k' (value_arg (k_name kw)) (k_comps kw) (object_arg (k_metric kw)) (object_arg (k_coords kw)) (VTuple (k_indices kw)) (symbol_arg k kw) w = (Ok i, w') ->
     exists o, w' = fresh_world w k' o /\ i = length (heap w) /\ WorldM.o_symbol o = sym_of (symbol_arg k kw)).
  { intros k' E'.
    destruct (new_tensor_spec k' (value_arg (k_name kw)) (k_comps kw) (object_arg (k_metric kw)) (object_arg (k_coords kw)) (VTuple (k_indices kw)) (symbol_arg k kw) w)
      as [[e H]|(m & c & a & x & Hm & Hmc & Hc & Hcc & Ha & Hx & Hv & H)]; rewrite H in E'; [discriminate|].
    injection E' as <- <-. eexists. repeat split; reflexivity. }
  destruct k; [|destruct (k_trans kw) as [|? ?] eqn:Et; [|discriminate]..].
  - destruct (all_some _) as [tr|]; [|discriminate].
    destruct (new_coordinates_spec (value_arg (k_name kw)) (k_comps kw) (VTuple (k_indices kw)) (symbol_arg CCoordinates kw) tr w) as [[e H]|(a & Ha & Hr & H)].
    { rewrite H in E. discriminate. }
    rewrite H in E. injection E as <- <-. eexists. repeat split; reflexivity.
  - destruct (metric_name _ _ _ _ _ _ _ _ E) as (o & s & V & -> & N & Sy & I). eauto.
  - apply T, E.
  - apply T, E.
  - apply T, E.
  - apply T, E.
Qed.

Lemma read_tensor_symbol name d w k kw w' : read_tensor name (VD d) w = (Ok (k, kw), w') -> k_symbol kw = entry "Symbol" d.
Proof.
  unfold read_tensor. intros E.
  repeat match goal with
         | H : mbind ?m _ ?v = (Ok _, _) |- _ => unfold mbind at 1 in H; let r := fresh "r" in let q := fresh "q" in destruct (m v) as [[r|] q] eqn:?; [|discriminate H]
         end.
  unfold mret in E. injection E as <- <- _. cbn [k_symbol].
  match goal with H : mlift (items _) _ = _ |- _ => cbn [items mlift] in H; unfold mlift, mret in H; injection H as <- _ end. reflexivity.
Qed.

Lemma first_read pre name d post w l w' : Forall (fun p : val * val => fst p = VS (chars "Options")) pre -> name <> VS (chars "Options") ->
  read_tensors (pre ++ (name, VD d) :: post) w = (Ok l, w') ->
  exists k kw l', l = (k, kw) :: l' /\ k_symbol kw = entry "Symbol" d.
Proof.
  intros F N. induction F as [|[a v] pre P F IH]; cbn [app read_tensors]; intros E.
  - destruct (key_same name (VS (chars "Options"))) eqn:Ek.
    { exfalso. destruct name as [| t | | |]; try discriminate. cbn [key_same] in Ek. apply N. f_equal. revert Ek. unfold text_eqb. destruct (list_eq_dec _ _ _); [auto|discriminate]. }
    unfold mbind at 1 in E. destruct (read_tensor name (VD d) w) as [[[k kw]|] w1] eqn:E1; [|discriminate].
    unfold mbind at 1 in E. destruct (read_tensors post w1) as [[r|] w2] eqn:E2; [|discriminate]. unfold mret in E. injection E as <- _.
    exists k, kw, r. split; [reflexivity|]. eapply read_tensor_symbol, E1.
  - cbn [fst] in P. subst a. change (key_same (VS (chars "Options")) (VS (chars "Options"))) with true in E. exact (IH E).
Qed.

Theorem import_symbol n s (w : world) i w' d : first_object n s d -> import_from_string n s w = (Ok i, w') ->
  exists k o, cls_of w' i = Some k /\ obj_of w' i = Some o /\
    WorldM.o_symbol o = match entry "Symbol" d with Some v => sym_of (value_arg v) | None => usual_symbol k end.
Proof.
  intros (pre & name & post & P & F & N) E. rewrite import_split in E. unfold mbind at 1 in E.
  destruct (import_args n s w) as [[[k kw]|] w1] eqn:E1; [|discriminate]. cbn [fst snd] in E.
  destruct (construct_symbol _ _ _ _ _ E) as (o & -> & -> & Sy). exists k, o.
  assert (K : k_symbol kw = entry "Symbol" d).
  { unfold import_args, string_to_tensor in E1. rewrite P in E1. cbn [items] in E1.
    unfold mbind at 1 in E1. unfold mbind at 1 in E1. unfold mlift at 1 in E1. unfold mbind at 1 in E1. unfold mlift at 1 in E1. cbn in E1.
    destruct (read_tensors _ w) as [[l|] w2] eqn:E2; [|discriminate].
    destruct (first_read _ _ _ _ _ _ _ F N E2) as (k1 & kw1 & l1 & -> & K1). cbn [hd_error mopt] in E1. unfold mbind at 1, mret at 1 in E1.
    destruct (k_coords kw1) as [[v|j]|]; [|unfold mret in E1; injection E1 as _ <- _; exact K1..].
    unfold mbind at 1 in E1. destruct (first_named v w2) as [[[j|]|] w3]; [|discriminate..]. unfold mret in E1. injection E1 as _ <- _. exact K1. }
  split; [|split].
  - unfold cls_of. cbn. rewrite nth_error_app2 by lia. rewrite Nat.sub_diag. reflexivity.
  - rewrite obj_of_fresh, Nat.eqb_refl. reflexivity.
  - rewrite Sy. unfold symbol_arg. rewrite K. destruct (entry "Symbol" d); [reflexivity|]. destruct k; reflexivity.
Qed.

Lemma entry_absent key d : (forall v, ~ In (VS (chars key), v) d) -> entry key d = None.
Proof.
  induction d as [|[k v] d IH]; intros H; cbn [entry]; [reflexivity|]. destruct (key_same k (VS (chars key))) eqn:Ek.
  - exfalso. destruct k as [| t | | |]; try discriminate. cbn [key_same] in Ek. unfold text_eqb in Ek. destruct (list_eq_dec _ _ _) as [->|]; [|discriminate].
    apply (H v). left. reflexivity.
  - apply IH. intros u U. apply (H u). right. exact U.
Qed.
Lemma entry_first key d1 v d2 : (forall u, ~ In (VS (chars key), u) d1) -> entry key (d1 ++ (VS (chars key), v) :: d2) = Some v.
Proof.
  induction d1 as [|[k u] d IH]; intros H; cbn [entry app].
  - cbn [key_same]. unfold text_eqb. destruct (list_eq_dec _ _ _) as [_|C']; [reflexivity|destruct (C' eq_refl)].
  - destruct (key_same k (VS (chars key))) eqn:Ek.
    + exfalso. destruct k as [| t | | |]; try discriminate. cbn [key_same] in Ek. unfold text_eqb in Ek. destruct (list_eq_dec _ _ _) as [->|]; [|discriminate].
      apply (H u). left. reflexivity.
    + apply IH. intros x U. apply (H x). right. exact U.
Qed.

Theorem symbol_of_import n s (w : world) i w' d : first_object n s d -> import_from_string n s w = (Ok i, w') ->
  exists k o, cls_of w' i = Some k /\ obj_of w' i = Some o /\
    ((forall v, ~ In (VS (chars "Symbol"), v) d) -> WorldM.o_symbol o = usual_symbol k) /\
    (forall d1 d2 v x, d = d1 ++ (VS (chars "Symbol"), v) :: d2 -> (forall u, ~ In (VS (chars "Symbol"), u) d1) ->
       v = VS (chars x) \/ (exists e, v = VE e /\ to_symbol e = Some x) -> WorldM.o_symbol o = x).
Proof.
  intros F E. destruct (import_symbol n s w i w' d F E) as (k & o & K & Ob & Sy). exists k, o. split; [exact K|]. split; [exact Ob|]. split.
  - intros H. rewrite (entry_absent _ _ H) in Sy. exact Sy.
  - intros d1 d2 v x -> H X. rewrite (entry_first _ _ _ _ H) in Sy. rewrite Sy. destruct X as [->|(e & -> & X)]; cbn.
    + unfold chars. apply string_of_list_ascii_of_string.
    + rewrite X. reflexivity.
Qed.

End Export9.
