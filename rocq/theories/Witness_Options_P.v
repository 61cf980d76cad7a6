(** Concrete cases for the statements about options and labels. *)
From Coq Require Import Ascii.
From Verif Require Import Base LexM InterpM OptionsM SpecOptions Options_P.
Import List.

(** Ranges are rejected and symbols are shown as they are. *)
#[export] Instance PlainNames : NameOps := {
  special_symbols := fun _ => Err EValueError;
  latex_symbol := fun x => x
}.

Definition ex_options : options := mkOptions true (Tuple [chars "a"; chars "b"]) (chars "lambda") 6 14 false.
Definition ex_plain : options := set_latex false ex_options.

Definition plainb (x : text) : bool :=
  negb (empty_text x) &&
  forallb (fun c => negb (is_space c) && negb (c =? ",")%char && negb (c =? ":")%char && negb (c =? backslash)%char) x.
Lemma plainb_spec x : plainb x = true -> plain_letter x.
Proof.
  intros H. apply andb_prop in H. destruct H as [H1 H2]. split; [destruct x; [discriminate H1|discriminate]|].
  rewrite forallb_forall in H2. apply Forall_forall. intros c I. specialize (H2 c I).
  repeat (apply andb_prop in H2; destruct H2 as [H2 ?]). repeat split.
  - apply negb_true_iff in H2. exact H2.
  - apply Ascii.eqb_neq. apply negb_true_iff. assumption.
  - apply Ascii.eqb_neq. apply negb_true_iff. assumption.
  - apply Ascii.eqb_neq. apply negb_true_iff. assumption.
Qed.

Definition ex_ij : list text := [chars "i"; chars "j"; chars "mu"].
Lemma ex_ij_plain : Forall plain_letter ex_ij.
Proof. repeat (apply Forall_cons; [apply plainb_spec; reflexivity|]). constructor. Qed.

Lemma ex_comma : separator (chars ", ").
Proof.
  split; [discriminate|]. right. exists [], (chars " "). split; [reflexivity|].
  split; [constructor|constructor; [reflexivity|constructor]].
Qed.

Lemma ex_ij_case : 2 <= length ex_ij /\ separator (chars ", ") /\ Forall plain_letter ex_ij /\
  separated (chars ", ") ex_ij = chars "i, j, mu".
Proof. split; [cbn; lia|]. split; [exact ex_comma|]. split; [exact ex_ij_plain|reflexivity]. Qed.
Lemma ex_ij_parameter : Forall plain_letter ex_ij /\ small_letters (separated (chars ", ") ex_ij) <> chars "automatic".
Proof. split; [exact ex_ij_plain|]. intros H. discriminate H. Qed.

Lemma ex_i_plain : plain_letter (chars "i") /\ ~ keyword (chars "i").
Proof. split; [apply plainb_spec; reflexivity|]. intros [H|[H|H]]; discriminate H. Qed.

(** One letter is accepted and no label can be made. *)
Lemma one_letter_witness : exists (N : NameOps) o s o', set_index_letters (AText s) o = (Ok tt, o') /\
  (exists t, eq_symbol o (chars "g") 2 [-1; -1]%Z = Ok t) /\
  eq_symbol o' (chars "g") 2 [-1; -1]%Z = Err ETypeError /\ eq_symbol o' (chars "R") 0 [] = Err ETypeError.
Proof.
  exists PlainNames, ex_options, (chars "i"), (set_letters (One (chars "i")) ex_options). split; [reflexivity|].
  split; [eexists; vm_compute; reflexivity|]. split; reflexivity.
Qed.

(** Two letters are not enough for the Riemann tensor. *)
Lemma few_letters_witness : exists (N : NameOps) o s o', set_index_letters (AText s) o = (Ok tt, o') /\
  eq_symbol o' (chars "R") 4 [1; -1; -1; -1]%Z = Err EIndexError.
Proof.
  exists PlainNames, ex_options, (chars "i j"), (set_letters (Tuple [chars "i"; chars "j"]) ex_options). split; reflexivity.
Qed.

(** Two different components with the same label. *)
Lemma same_label_witness : exists (N : NameOps) o xs pos pos' t, NoDup xs /\ pos <> pos' /\
  component_label o (chars "T") 2 xs [-1; -1]%Z pos = Ok t /\ component_label o (chars "T") 2 xs [-1; -1]%Z pos' = Ok t.
Proof.
  exists PlainNames, ex_plain, [chars "x"; chars "x_x"], [0; 1], [1; 0], (chars "T_x_x_x").
  split; [apply distinct_spec; reflexivity|]. split; [discriminate|]. split; reflexivity.
Qed.

Definition ex_xyz : list text := [chars "t"; chars "r"; chars "theta"].
Lemma ex_xyz_apart : NoDup (map (shown ex_plain) ex_xyz) /\ Forall (fun x => apart_name (opt_latex ex_plain) (shown ex_plain x)) ex_xyz /\
  exists t, component_label ex_plain (chars "g") 2 ex_xyz [-1; -1]%Z [1; 2] = Ok t.
Proof.
  split; [apply distinct_spec; reflexivity|]. split.
  - repeat (apply Forall_cons; [cbn; repeat (apply Forall_cons; [split; discriminate|]); constructor|]). constructor.
  - eexists. vm_compute. reflexivity.
Qed.

Lemma ex_latex_apart : NoDup (map (shown ex_options) ex_xyz) /\ Forall (fun x => apart_name (opt_latex ex_options) (shown ex_options x)) ex_xyz.
Proof.
  split; [apply distinct_spec; reflexivity|].
  assert (G : forall x : text, ~ In "{"%char x -> forall a b, x <> a ++ "{"%char :: " "%char :: b).
  { intros x H a b E. apply H. rewrite E. apply in_or_app. right. left. reflexivity. }
  repeat (apply Forall_cons; [cbn; apply G; cbn; intuition discriminate|]). constructor.
Qed.

Definition ex_text : text := chars " x0,  y z, ".
Lemma ex_text_read : no_special ex_text /\ str_symbols (AText ex_text) = Ok (chars "x0 y z").
Proof.
  split; [|vm_compute; reflexivity]. unfold no_special, ex_text. cbv [chars list_ascii_of_string].
  repeat (apply Forall_cons; [split; discriminate|]). constructor.
Qed.

(** Zero is accepted as a size. *)
Lemma zero_size_witness : exists (N : NameOps) o o', set_font_size (AInt 0) o = (Ok tt, o') /\ opt_font_size o' = 0 /\
  exists o'', set_font_size (ABool true) o = (Ok tt, o'') /\ opt_font_size o'' = 1.
Proof.
  exists PlainNames, ex_options, (set_size 0 ex_options). split; [reflexivity|]. split; [reflexivity|].
  exists (set_size 1 ex_options). split; reflexivity.
Qed.

(** A second name is dropped. *)
Lemma parameter_witness : exists (N : NameOps) o o', set_curve_parameter (AText (chars "tau sigma")) o = (Ok tt, o') /\
  opt_parameter o' = chars "tau".
Proof. exists PlainNames, ex_options, (set_parameter (chars "tau") ex_options). split; reflexivity. Qed.
