(** Covariant derivatives under any index letters. *)
From Coq Require Import Ascii.
From Verif Require Import Alg Alg_P Arr Arr_P Spec UtilsM Utils_P Arr2_P Act_P RL_P TensorM WorldM SpecWorld World_P Registry_P CalcM SpecCalc Keep_P Calc_P Calc2_P Calc3_P Calc4_P Trace_P Run_P CurvM SpecCurv SpecCov Form_P Form2_P CurvRun_P CurvRun2_P Curv_P Cov_P Cov2_P Cov3_P Cov4_P.
From Verif Require Import Base LexM InterpM OptionsM SpecOptions Options_P SpecGeod GeodM Geod5_P LettersM.
Local Open Scope nat_scope.

Lemma string_of_chars s : string_of_list_ascii (chars s) = s.
Proof. apply string_of_list_ascii_of_string. Qed.
Lemma strings_of_chars l : map string_of_list_ascii (map chars l) = l.
Proof. induction l as [|s l IH]; [reflexivity|]. cbn [map]. rewrite string_of_chars, IH. reflexivity. Qed.
Lemma tuple_letters o l : opt_letters o = Tuple (map chars l) -> index_letters o = Ok l.
Proof. intros H. unfold index_letters. rewrite H, strings_of_chars. reflexivity. Qed.

Section Letters.
Context {A : AlgOps} {L : AlgLaws A} {D : DiffLaws A}.
Variables (n : nat) (m c : oid) (name : string) (xs : list string) (g gi : nat -> nat -> K).
Notation session w := (metric_session w n m c name xs g gi).
Notation known w := (known_results n xs g gi w m c name).
Notation value w := (tensor_value w n m c).
Notation Gam := (Gam n xs g gi).
Notation yields := (yields n xs g gi).

Lemma gradient_letters (N : NameOps) sep l o : 2 <= length l -> separator sep -> Forall plain_letter (map chars l) ->
  exists o', set_index_letters (AText (separated sep (map chars l))) o = (Ok tt, o') /\
  forall w t i h syms a, session w -> known w -> value w t i h -> ~ named w "TEMP" t -> valid_cfg i ->
    NoDup (a :: syms) -> length syms = length i -> free_letters l (a :: syms) ->
    yields (let! d := CovariantD [a] in let! x := calc_call t syms in matmul_in o' d x) m c name [(name ++ " Christoffel")%string]
      (a :: syms) (-1 :: i)%Z (fun idx => covariant_of n (cx xs) Gam i h (nth 0 idx 0) (tl idx)) w.
Proof.
  intros H1 H2 H3. destruct (letters_work sep (map chars l) o ltac:(rewrite map_length; exact H1) H2 H3) as (o' & E & El & _).
  exists o'. split; [exact E|]. intros. unfold matmul_in. rewrite (tuple_letters _ _ El). apply gradient_value_with; assumption.
Qed.
Lemma divergence_letters (N : NameOps) sep l o : 2 <= length l -> separator sep -> Forall plain_letter (map chars l) ->
  exists o', set_index_letters (AText (separated sep (map chars l))) o = (Ok tt, o') /\
  forall w t i h l1 l2 a, session w -> known w -> value w t i h -> ~ named w "TEMP" t -> valid_cfg i ->
    NoDup (l1 ++ a :: l2) -> length (l1 ++ a :: l2) = length i -> free_letters l (l1 ++ a :: l2) ->
    yields (let! d := CovariantD [a] in let! x := calc_call t (l1 ++ a :: l2) in matmul_in o' d x) m c name [(name ++ " Christoffel")%string]
      (l1 ++ l2) (firstn (length l1) i ++ skipn (S (length l1)) i) (divergence_of n (cx xs) Gam gi i h (length l1)) w.
Proof.
  intros H1 H2 H3. destruct (letters_work sep (map chars l) o ltac:(rewrite map_length; exact H1) H2 H3) as (o' & E & El & _).
  exists o'. split; [exact E|]. intros. unfold matmul_in. rewrite (tuple_letters _ _ El). apply divergence_value_with; assumption.
Qed.

(** *** Letters that cannot be used *)
Lemma bad_letters ls e w t i h syms a :
  session w -> known w -> value w t i h -> valid_cfg i -> NoDup syms -> length syms = length i ->
  (forall w1, (let! ds := unused ls (syms ++ [a]) in mnth ds 0) w1 = (Err e, w1)) ->
  exists w', (let! d := CovariantD [a] in let! x := calc_call t syms in matmul_with ls d x) w = (Err e, w').
Proof.
  intros HS Ka V Vi Ns Ls Hu. rewrite (left_formula n m c name xs g gi ls w t i h syms a HS V Vi Ns Ls).
  unfold matmul_with. cbn [c_role c_syms]. rewrite (bind_ok _ _ t w w) by reflexivity. unfold covariant_product.
  destruct V as (k & o & ar & Hk & Nk & Ho & Mo & _). rewrite (bind_ok _ _ _ _ _ (getobj_ok w t o Ho)). rewrite (bind_ok _ _ m w w) by (rewrite Mo; reflexivity).
  destruct (christoffel_done n m c name xs g gi w HS (proj2 (known_all_spec n m c name xs g gi w) Ka)) as (chr & w1 & E1 & _). rewrite (bind_ok _ _ _ _ _ E1).
  exists w1. apply bind_err. specialize (Hu w1). unfold mbind at 1 in Hu. unfold mbind at 1. destruct (unused ls (syms ++ [a]) w1) as [[ds|e'] w2]; [|injection Hu as -> ->; reflexivity].
  apply bind_err, Hu.
Qed.
Lemma no_letter_left ls l w t i h syms a : ls = Ok l -> (forall s, In s l -> In s (a :: syms)) ->
  session w -> known w -> value w t i h -> valid_cfg i -> NoDup syms -> length syms = length i ->
  exists w', (let! d := CovariantD [a] in let! x := calc_call t syms in matmul_with ls d x) w = (Err EIndexError, w').
Proof.
  intros -> Hl HS Ka V Vi Ns Ls. apply (bad_letters _ _ w t i h syms a); try assumption. intros w1. unfold unused, mlift, mbind, mret.
  rewrite filter_none; [reflexivity|]. intros s Hs. apply negb_false_iff, smem_in, in_app_iff. specialize (Hl s Hs). cbn in *. tauto.
Qed.

Lemma one_letter_derivative (N : NameOps) x o : plain_letter x -> ~ keyword x ->
  exists o', set_index_letters (AText x) o = (Ok tt, o') /\
  forall w t i h syms a, session w -> known w -> value w t i h -> valid_cfg i -> NoDup syms -> length syms = length i ->
    exists w', (let! d := CovariantD [a] in let! x := calc_call t syms in matmul_in o' d x) w = (Err ETypeError, w').
Proof.
  intros Hx Kx. destruct (one_letter x o Hx Kx) as (o' & E & _ & He & _). exists o'. split; [exact E|]. intros w t i h syms a HS Ka V Vi Ns Ls.
  unfold matmul_in. apply (bad_letters _ _ w t i h syms a); try assumption. intros w1. unfold index_letters.
  specialize (He [] 0 []). unfold eq_symbol in He. destruct (opt_letters o') as [l|y]; [discriminate He|reflexivity].
Qed.
Lemma few_letters_derivative (N : NameOps) sep l o : 2 <= length l -> separator sep -> Forall plain_letter (map chars l) ->
  exists o', set_index_letters (AText (separated sep (map chars l))) o = (Ok tt, o') /\
  forall w t i h syms a, session w -> known w -> value w t i h -> valid_cfg i -> NoDup syms -> length syms = length i ->
    (forall s, In s l -> In s (a :: syms)) ->
    exists w', (let! d := CovariantD [a] in let! x := calc_call t syms in matmul_in o' d x) w = (Err EIndexError, w').
Proof.
  intros H1 H2 H3. destruct (letters_work sep (map chars l) o ltac:(rewrite map_length; exact H1) H2 H3) as (o' & E & El & _).
  exists o'. split; [exact E|]. intros. unfold matmul_in. eapply no_letter_left; try eassumption. apply (tuple_letters _ _ El).
Qed.
End Letters.

(** The key words and the default letters *)
Lemma keyword_letters {A : AlgOps} (N : NameOps) s o : keyword s ->
  exists o' l, set_index_letters (AText s) o = (Ok tt, o') /\ (forall x y, matmul_in o' x y = matmul_with (Ok l) x y) /\ NoDup l /\
    (small_letters s = chars "greek" -> l = greek_names) /\ (small_letters s <> chars "greek" -> l = english_names /\ forall x y, matmul_in o' x y = matmul x y).
Proof.
  intros K. destruct (keywords_work s o K) as (o' & l & E & _ & El & Nl & Hg & He).
  destruct (list_eq_dec ascii_dec (small_letters s) (chars "greek")) as [G|G].
  - specialize (Hg G). subst l. exists o', greek_names. split; [exact E|]. split; [intros; unfold matmul_in; rewrite (tuple_letters _ _ El); reflexivity|].
    split; [apply distinctb_spec; reflexivity|]. split; [reflexivity|]. intros H. contradiction.
  - destruct (He G) as [-> _]. exists o', english_names. split; [exact E|]. split; [intros; unfold matmul_in; rewrite (tuple_letters _ _ El); reflexivity|].
    split; [apply distinctb_spec; reflexivity|]. split; [intros H; contradiction|]. intros _. split; [reflexivity|]. intros; unfold matmul_in; rewrite (tuple_letters _ _ El); reflexivity.
Qed.

(** The curve parameter *)
Section CurveOption.
Context {A : AlgOps} {L : AlgLaws A} {D : DiffLaws A} {C : CleanLaws A} {Y : SymLaws A}.
Variables (n : nat) (m c : oid) (name : string) (xs : list string) (g gi : nat -> nat -> K).
Lemma geodesic_parameter (N : NameOps) arg p o :
  arg = ASymbol (chars p) \/ arg = AText (chars p) /\ plain_letter (chars p) /\ small_letters (chars p) <> chars "automatic" ->
  exists o', set_curve_parameter arg o = (Ok tt, o') /\
  forall w coords, metric_session w n m c name xs g gi -> known_results n xs g gi w m c name -> known_curves n xs g gi w m c name ->
    static_along p n xs g -> coords = None \/ coords = Some c ->
    gives_curve n xs g gi (calc_geodesic_lagrangian_in o' m coords) m c name
      [(name ++ " Lagrangian")%string; (name ++ " Geodesic From Lagrangian")%string] CGeodesic [1]%Z (is_geodesic n (Geo_lowered n xs g gi)) w.
Proof.
  intros H. assert (E : exists o', set_curve_parameter arg o = (Ok tt, o') /\ opt_parameter o' = chars p).
  { destruct H as [H|(-> & Pl & Na)]; [exact (proj1 (parameter_other arg o) _ H)|].
    destruct (parameter_first (chars " ") [chars p] o) as (o' & E & Hp); [discriminate| |constructor; auto|exact Na|].
    { split; [discriminate|left; repeat constructor]. }
    exists o'. split; [exact E|]. injection Hp as <-. reflexivity. }
  destruct E as (o' & E & Ep). exists o'. split; [exact E|]. intros w coords HS Ka Kc St Hc. unfold calc_geodesic_lagrangian_in. rewrite Ep, string_of_chars.
  apply geodesic_lagrangian_along; assumption.
Qed.
End CurveOption.
