(** Proofs about show and list of coordinates. *)
From Coq Require Import Ascii String.
From Verif Require Import Alg Arr Arr_P Spec TensorM WorldM SpecWorld World_P CalcM Calc_P LexM InterpM OptionsM SpecOptions Options_P ShowM SpecShow Show_P CoordShowM.
Import List.
Local Open Scope nat_scope.

Section CoordShow.
Context {A : AlgOps} {N : NameOps}.

Theorem coordinates_shown op l t o w : obj_of w t = Some o -> opt_letters op = Tuple l ->
  o_rank o = 1 -> o_indices o = [1]%Z \/ o_indices o = [-1]%Z ->
  (1 <= length l -> exists a b, awf a /\ shape a = [length (o_syms o)] /\
     (forall i, i < length (o_syms o) -> aget a [i] = ksym (nth i (o_syms o) ""%string)) /\ shown_as a b /\
     coordinates_show op t w = (Ok (label_text (opt_latex op) (chars (o_symbol o)) l (o_indices o), b), w)) /\
  (l = [] -> coordinates_show op t w = (Err EIndexError, w)).
Proof.
  intros Ho Hl Hr Hi. set (n := length (o_syms o)). set (a := mkArr [n] (map ksym (o_syms o))).
  assert (W : awf a) by (unfold awf, a, n; cbn; rewrite map_length; lia).
  assert (C : config (o_indices o)) by (destruct Hi as [-> | ->]; repeat constructor; auto).
  assert (Hn : length (o_indices o) = 1) by (destruct Hi as [-> | ->]; reflexivity).
  destruct (label_ok op (chars (o_symbol o)) l (o_indices o) Hl C) as [L1 L2]. rewrite Hn in *. split.
  - intros Hl1. exists a, (mkArr [n; 1] (map ksym (o_syms o))). split; [exact W|]. split; [reflexivity|]. split.
    { intros i Hn'. unfold aget, a. cbn. rewrite Nat.mul_1_r, Nat.add_0_r. rewrite (nth_indep _ k0 (ksym ""%string)) by (rewrite map_length; exact Hn'). apply map_nth. }
    split; [apply (shown_column n a W eq_refl)|]. unfold coordinates_show.
    rewrite (bind_ok _ _ o w w) by (apply getobj_ok, Ho). rewrite Hr, (L1 Hl1). fold n. fold a.
    rewrite (bind_ok _ _ _ w w) by reflexivity. rewrite (bind_ok _ _ (mkArr [n; 1] (data a)) w w) by (apply column_run; [exact W|reflexivity]). reflexivity.
  - intros ->. unfold coordinates_show. rewrite (bind_ok _ _ o w w) by (apply getobj_ok, Ho). rewrite Hr, L2 by (cbn; lia). reflexivity.
Qed.
Theorem coordinates_one_letter op x t o w : obj_of w t = Some o -> opt_letters op = One x -> coordinates_show op t w = (Err ETypeError, w).
Proof. intros Ho Hl. unfold coordinates_show. rewrite (bind_ok _ _ o w w) by (apply getobj_ok, Ho). unfold eq_symbol. rewrite Hl. reflexivity. Qed.

Lemma chars_inj s : forall t, chars s = chars t -> s = t.
Proof. induction s as [|c s IH]; intros [|d t] H; cbn in H; try discriminate H; [reflexivity|]. injection H as -> H. f_equal. apply IH, H. Qed.
Theorem coordinates_listed op t o w : obj_of w t = Some o ->
  exists l, coordinates_list op t w = (Ok l, w) /\ length l = length (o_syms o) /\
    (forall i, i < length (o_syms o) ->
       nth_error l i = Some (shown op (chars (o_symbol o ++ "^" ++ nth i (o_syms o) "")%string), shown op (chars (nth i (o_syms o) ""%string)))) /\
    (opt_latex op = false -> (NoDup (o_syms o) -> NoDup (map fst l)) /\ forall e, In e l -> fst e <> snd e).
Proof.
  intros Ho. unfold coordinates_list. rewrite (bind_ok _ _ o w w) by (apply getobj_ok, Ho). eexists. split; [reflexivity|]. split; [apply map_length|].
  assert (CA : forall a b, chars (a ++ b)%string = chars a ++ chars b) by (induction a as [|c a IH]; intros b; [reflexivity|cbn; f_equal; apply IH]).
  split.
  - intros i Hi. rewrite (map_nth_error _ i (o_syms o) (d := nth i (o_syms o) ""%string)) by (apply nth_error_nth'; exact Hi). rewrite !CA. reflexivity.
  - intros Hx. split.
    + intros H. rewrite map_map. cbn [fst]. apply FinFun.Injective_map_NoDup; [|exact H]. intros a b E. unfold shown in E. rewrite Hx in E.
      apply app_inv_head in E. injection E as E. apply chars_inj, E.
    + intros e He. apply in_map_iff in He as (x & <- & _). cbn [fst snd]. unfold shown. rewrite Hx. intros E.
      apply (f_equal (@length _)) in E. rewrite !app_length in E. cbn in E. lia.
Qed.
Theorem coordinates_called t i w : coordinates_call t i w = (Err ENotImplemented, w).
Proof. reflexivity. Qed.
End CoordShow.
