(** What show and list display and what get_components returns. *)
From Coq Require Import String Ascii.
From Verif Require Import Alg Alg_P Arr Arr_P Arr2_P UtilsM Utils_P Spec Act_P TensorM RL_P Jac_P WorldM World_P CalcM Calc_P Scalar_P List_P Subs_P Tensor_P Jacobian_P Chr_P Geod4_P CurveM SpecCurve Curve_P Curve2_P Curve3_P Curve4_P ShowM SpecShow.
Import List.
Local Open Scope nat_scope.

Section Show.
Context {A : AlgOps} {L : AlgLaws A} {DL : DiffLaws A} {SL : SubsLaws A} {YL : SymLaws A}.

(** *** The parts *)
Lemma apply_function_spec f o c n a w : 1 <= n -> cubic n a -> (f <> None -> ~ made_elsewhere o c) ->
  exists b, apply_function f o c a w = (Ok b, w) /\ cubic n b /\ shape b = shape a /\
    forall idx, inb (shape a) idx = true -> aget b idx = applied f (aget a idx).
Proof.
  intros Hn Ha Hm. destruct f as [f|]; [|exists a; repeat split; auto; apply Ha].
  destruct (map_to_array_spec n a f Hn Ha) as (b & E & Hb & Hs & V). exists b. unfold apply_function.
  rewrite (here_expr _ _ (Hm ltac:(discriminate))), E. split; [reflexivity|]. split; [|auto].
  split; [exact Hb|]. destruct Ha as [_ Ha]. unfold rank. rewrite Hs. exact Ha.
Qed.
Lemma apply_function_elsewhere f o c a w : made_elsewhere o c -> apply_function (Some f) o c a w = (Err ETypeError, w).
Proof. intros H. unfold apply_function. rewrite (proj2 (elsewhere_expr _ _) H). reflexivity. Qed.

Lemma awf_replace r a : awf a -> awf (apply_replace r a).
Proof. destruct r; [apply awf_amap|auto]. Qed.
Lemma shape_replace r a : shape (apply_replace r a) = shape a.
Proof. destruct r; reflexivity. Qed.
Lemma aget_replace r a idx : awf a -> inb (shape a) idx = true ->
  aget (apply_replace r a) idx = match r with None => aget a idx | Some r => replace_symbols r (aget a idx) end.
Proof. intros W Hi. destruct r; [|reflexivity]. apply aget_amap; assumption. Qed.
Lemma replace_value r e : plain_argument r ->
  keq match r with None => e | Some r => replace_symbols r e end (substituted r e).
Proof. destruct r as [r|]; cbn; [|reflexivity]. intros P. apply (plain_simultaneous r e P). Qed.

Lemma column_run n a w : awf a -> shape a = [n] -> as_column a w = (Ok (mkArr [n; 1] (data a)), w).
Proof. intros W E. unfold as_column. rewrite E. cbn [prodn]. rewrite Nat.mul_1_r, Nat.eqb_refl. reflexivity. Qed.
Lemma column_wf n a : awf a -> shape a = [n] -> awf (mkArr [n; 1] (data a)).
Proof. intros W E. unfold awf in *. rewrite E in W. cbn in *. lia. Qed.
Lemma column_get n d i : aget (mkArr [n; 1] d) [i; 0] = aget (mkArr [n] d) [i].
Proof. unfold aget. cbn. f_equal; try lia. Qed.
Lemma column_get' n a i : shape a = [n] -> aget (mkArr [n; 1] (data a)) [i; 0] = aget a [i].
Proof. intros E. rewrite column_get. destruct a as [sh d]. cbn in *. subst sh. reflexivity. Qed.
Lemma rank1_shape n a : cubic n a -> rank a = 1 -> shape a = [n].
Proof. intros [_ H] R. rewrite H, R. reflexivity. Qed.

Lemma obtained_run {X} w t coords idx c n a w1 o (k : oid -> arr -> obj -> M X) : obtained w t coords idx c n a w1 o ->
  (let! o := getobj t in let! c := asked coords o in let! a := get_components t coords idx in let! o := getobj t in k c a o) w = k c a o w1.
Proof.
  intros ((o0 & H0 & Hc) & Hg & Ho & _). rewrite (bind_ok _ _ o0 w w) by (apply getobj_ok, H0).
  rewrite (bind_ok _ _ c w w) by (destruct Hc as [->|[-> Hc]]; [reflexivity|unfold asked; rewrite Hc; reflexivity]).
  rewrite (bind_ok _ _ a w w1) by exact Hg. rewrite (bind_ok _ _ o w1 w1) by (apply getobj_ok, Ho). reflexivity.
Qed.

(** *** Tensors *)
Theorem all_values w t coords idx c n a w1 o f r : obtained w t coords idx c n a w1 o -> plain_argument r ->
  (f <> None -> ~ made_elsewhere o c) ->
  exists b, get_components_all f r t coords idx w = (Ok b, w1) /\ pointwise (fun e => substituted r (applied f e)) a b.
Proof.
  intros H P Hm. assert (H' := H). destruct H' as (_ & _ & _ & Hn & Ha & _).
  destruct (apply_function_spec f o c n a w1 Hn Ha Hm) as (b & E & Hb & Hs & V).
  exists (apply_replace r b). split.
  - unfold get_components_all. rewrite (obtained_run _ _ _ _ _ _ _ _ _ _ H). rewrite (bind_ok _ _ b w1 w1) by exact E. reflexivity.
  - split; [apply awf_replace, Hb|]. split; [rewrite shape_replace; exact Hs|]. intros i Hi.
    rewrite aget_replace by (try apply Hb; rewrite Hs; exact Hi). rewrite (V i Hi). apply replace_value, P.
Qed.
Theorem function_on_expression w t coords idx c n a w1 o f r : obtained w t coords idx c n a w1 o -> made_elsewhere o c ->
  get_components_all (Some f) r t coords idx w = (Err ETypeError, w1) /\
  show_components (Some f) r t coords idx w = (Err ETypeError, w1) /\
  list_components (Some f) r t coords idx w = (Err ETypeError, w1).
Proof.
  intros H Hm. assert (R := Hm). destruct R as [R _].
  unfold get_components_all, show_components, list_components. rewrite !(obtained_run _ _ _ _ _ _ _ _ _ _ H).
  unfold shown_form. rewrite R. cbn [Nat.eqb]. unfold mret at 2. unfold mbind. rewrite (apply_function_elsewhere f o c a w1 Hm). repeat split.
Qed.
Theorem errors_kept w t coords idx e w1 f r : get_components t coords idx w = (Err e, w1) -> 
  (exists o c, obj_of w t = Some o /\ asked_coords o coords c) ->
  get_components_all f r t coords idx w = (Err e, w1) /\ show_components f r t coords idx w = (Err e, w1) /\
  list_components f r t coords idx w = (Err e, w1).
Proof.
  intros Hg (o & c & H0 & Hc).
  assert (R : forall X (k : oid -> arr -> M X), (let! o := getobj t in let! c := asked coords o in let! a := get_components t coords idx in k c a) w = (Err e, w1)).
  { intros X k. rewrite (bind_ok _ _ o w w) by (apply getobj_ok, H0).
    rewrite (bind_ok _ _ c w w) by (destruct Hc as [->|[-> Hc]]; [reflexivity|unfold asked; rewrite Hc; reflexivity]).
    unfold mbind. rewrite Hg. reflexivity. }
  repeat split; apply R.
Qed.

Lemma shown_other a : awf a -> rank a <> 1 -> shown_as a a.
Proof. intros W R. split; [exact W|]. split; [reflexivity|]. intros n E. exfalso. apply R. unfold rank. rewrite E. reflexivity. Qed.
Lemma shown_column n a : awf a -> shape a = [n] -> shown_as a (mkArr [n; 1] (data a)).
Proof.
  intros W E. split; [apply column_wf; assumption|]. split.
  - intros R. exfalso. apply R. unfold rank. rewrite E. reflexivity.
  - intros m Em. rewrite E in Em. injection Em as <-. split; [reflexivity|]. intros i _. apply column_get', E.
Qed.

Theorem show_same w t coords idx c n a w1 o f r : obtained w t coords idx c n a w1 o -> plain_argument r ->
  (f <> None -> ~ made_elsewhere o c /\ rank a <> 1) ->
  exists b b', get_components_all f r t coords idx w = (Ok b, w1) /\ show_components f r t coords idx w = (Ok b', w1) /\
    pointwise (fun e => substituted r (applied f e)) a b /\ shown_as b b'.
Proof.
  intros H P Hm. destruct (all_values w t coords idx c n a w1 o f r H P (fun X => proj1 (Hm X))) as (b & Eb & Vb).
  assert (H' := H). destruct H' as (_ & _ & _ & Hn & Ha & Hr).
  assert (Sh : rank b = rank a) by (destruct Vb as (_ & E & _); unfold rank; rewrite E; reflexivity).
  destruct (Nat.eq_dec (rank a) 1) as [R|R].
  - assert (f = None) as -> by (destruct f; [exfalso; apply (proj2 (Hm ltac:(discriminate))), R|reflexivity]).
    assert (Es := rank1_shape n a Ha R).
    assert (b = apply_replace r a) as ->.
    { unfold get_components_all in Eb. rewrite (obtained_run _ _ _ _ _ _ _ _ _ _ H) in Eb. cbn in Eb. injection Eb as <-. reflexivity. }
    exists (apply_replace r a), (apply_replace r (mkArr [n; 1] (data a))). split; [exact Eb|]. split; [|split; [exact Vb|]].
    + unfold show_components. rewrite (obtained_run _ _ _ _ _ _ _ _ _ _ H). unfold shown_form. rewrite <- Hr, R. cbn [Nat.eqb].
      rewrite (bind_ok _ _ _ w1 w1) by (apply column_run; [apply Ha|exact Es]). reflexivity.
    + replace (apply_replace r (mkArr [n; 1] (data a))) with (mkArr [n; 1] (data (apply_replace r a))) by (destruct r; reflexivity).
      apply shown_column; [apply awf_replace, Ha|rewrite shape_replace; exact Es].
  - exists b, b. split; [exact Eb|]. split; [|split; [exact Vb|]].
    + rewrite <- Eb. unfold show_components, get_components_all. rewrite !(obtained_run _ _ _ _ _ _ _ _ _ _ H).
      unfold shown_form. rewrite <- Hr. destruct (Nat.eqb_spec (rank a) 1); [contradiction|]. reflexivity.
    + apply shown_other; [apply Vb|rewrite Sh; exact R].
Qed.

(** *** Vectors with a function: a square is shown *)
Lemma map_column n (d : list K) f : 2 <= n -> length d = n ->
  exists r, map_to_array (mkArr [n; 1] d) f = Ok r /\ awf r /\ shape r = [n; n] /\
    forall i j, i < n -> j < n -> aget r [i; j] = if j =? 0 then f (nth i d k0) else k0.
Proof.
  intros Hn Hd. unfold map_to_array.
  destruct (zero_tensor_ok n 2) as (z & Ez & Hwz & Hsz & Hz); [lia|].
  cbn [shape rank length] in *. cbn [repeat length] in Ez. rewrite Ez. cbn [rbind].
  rewrite elements_spec by (unfold awf; cbn; lia).
  change (rank (mkArr [n; 1] d) =? 0) with false. cbn [shape].
  destruct (rfold_aset_map (fun idx => f (aget (mkArr [n; 1] d) idx)) (all_idx [n; 1]) z [n; n] Hwz Hsz)
    as (c & Ec & Hwc & Hsc & Hc).
  - intros idx Hi. apply in_all_idx in Hi. destruct idx as [|i [|j [|k idx]]]; try discriminate Hi.
    + rewrite inb_cons in Hi; apply andb_prop in Hi as [_ Hi]; discriminate.
    + apply inb_cons_true in Hi as [H1 H2]. apply inb_cons_true in H2 as [H2 _].
      apply inb_cons_true; split; [exact H1|]. apply inb_cons_true; split; [lia|reflexivity].
    + rewrite !inb_cons in Hi. apply andb_prop in Hi as [_ Hi]. apply andb_prop in Hi as [_ Hi]. discriminate.
  - exists c. split; [|split; [exact Hwc|split; [exact Hsc|]]].
    + rewrite <- Ec. clear.
      generalize (all_idx [n; 1]) as l. intros l. revert z.
      induction l as [|x l IH]; intros z; cbn; [reflexivity|].
      destruct (aset z x _) as [z'|e]; cbn; [apply IH|reflexivity].
    + intros i j Hi Hj. assert (Hin : inb [n; n] [i; j] = true) by (apply inb_cons_true; split; [exact Hi|]; apply inb_cons_true; split; [exact Hj|reflexivity]).
      rewrite (Hc _ Hin). destruct (existsb (shape_eqb [i; j]) (all_idx [n; 1])) eqn:E.
      * apply existsb_exists in E as (idx & I & E). apply shape_eqb_true in E. subst idx. apply in_all_idx in I.
        apply inb_cons_true in I as [_ I]. apply inb_cons_true in I as [I _]. assert (j = 0) as -> by lia. cbn [Nat.eqb].
        f_equal. unfold aget. cbn. f_equal. lia.
      * destruct (Nat.eqb_spec j 0) as [->|J].
        -- exfalso. assert (Z : existsb (shape_eqb [i; 0]) (all_idx [n; 1]) = true); [|congruence].
           apply existsb_exists. exists [i; 0]. split; [|apply shape_eqb_true; reflexivity]. apply in_all_idx.
           apply inb_cons_true; split; [exact Hi|]. apply inb_cons_true; split; [lia|reflexivity].
        -- apply Hz. exact Hin.
Qed.

Lemma subst_zero r : plain_argument r -> keq (substituted r k0) k0.
Proof. destruct r as [r|]; cbn; [|reflexivity]. intros _. apply hom_0, hom_subs_seq. Qed.

Theorem show_square w t coords idx c n a w1 o f r : obtained w t coords idx c n a w1 o -> plain_argument r ->
  2 <= n -> rank a = 1 ->
  exists b b', get_components_all (Some f) r t coords idx w = (Ok b, w1) /\ shape b = [n] /\
    show_components (Some f) r t coords idx w = (Ok b', w1) /\ shape b' = [n; n] /\
    forall i j, i < n -> j < n -> keq (aget b' [i; j]) (if j =? 0 then aget b [i] else k0).
Proof.
  intros H P Hn R. assert (H' := H). destruct H' as (_ & _ & _ & Hn1 & Ha & Hr). assert (Es := rank1_shape n a Ha R).
  assert (Nm : ~ made_elsewhere o c) by (intros [Z _]; rewrite <- Hr in Z; congruence).
  destruct (all_values w t coords idx c n a w1 o (Some f) r H P (fun _ => Nm)) as (b & Eb & Vb).
  destruct (map_column n (data a) f Hn) as (q & Eq & Wq & Sq & Vq).
  { destruct Ha as [W _]. unfold awf in W. rewrite Es in W. cbn in W. lia. }
  exists b, (apply_replace r q). split; [exact Eb|]. split; [destruct Vb as (_ & -> & _); exact Es|]. split; [|split; [rewrite shape_replace; exact Sq|]].
  - unfold show_components. rewrite (obtained_run _ _ _ _ _ _ _ _ _ _ H). unfold shown_form. rewrite <- Hr, R. cbn [Nat.eqb].
    rewrite (bind_ok _ _ _ w1 w1) by (apply column_run; [apply Ha|exact Es]).
    rewrite (bind_ok _ _ q w1 w1) by (unfold apply_function; rewrite (here_expr _ _ Nm), Eq; reflexivity). reflexivity.
  - intros i j Hi Hj. assert (Hin : inb (shape q) [i; j] = true) by (rewrite Sq; apply inb_cons_true; split; [exact Hi|]; apply inb_cons_true; split; [exact Hj|reflexivity]).
    rewrite aget_replace by assumption. rewrite replace_value by exact P. rewrite (Vq i j Hi Hj).
    destruct (j =? 0); [|apply subst_zero, P].
    destruct Vb as (_ & _ & Vb). rewrite (Vb [i]) by (rewrite Es; apply inb_cons_true; split; [exact Hi|reflexivity]).
    replace (aget a [i]) with (nth i (data a) k0); [reflexivity|]. unfold aget. rewrite Es. cbn. f_equal. lia.
Qed.

(** *** list *)
Lemma groups_list n a : cubic n a -> lists a (list_groups n (rank a) a) /\ (exact_zero_test -> lists_once a (list_groups n (rank a) a)).
Proof.
  intros Ha. split; [split|].
  - intros R; unfold list_groups; rewrite R; reflexivity.
  - intros R. split.
    + intros pos. rewrite (groups_labels n (rank a) a pos R). destruct Ha as [_ Hs]. rewrite tuples_all_idx, in_all_idx, <- Hs. reflexivity.
    + intros key es s pos H1 H2. apply (groups_sound n (rank a) a key es s pos R H1 H2).
  - intros Z R. destruct (groups_all n (rank a) a Ha eq_refl R Z) as (H1 & H2 & H3 & H4). auto.
Qed.
Theorem list_same w t coords idx c n a w1 o f r : obtained w t coords idx c n a w1 o -> plain_argument r ->
  (f <> None -> ~ made_elsewhere o c) -> n_coordinates w1 o n ->
  exists b g, get_components_all f r t coords idx w = (Ok b, w1) /\ list_components f r t coords idx w = (Ok g, w1) /\
    pointwise (fun e => substituted r (applied f e)) a b /\ lists b g /\ (exact_zero_test -> lists_once b g).
Proof.
  intros H P Hm (c0 & oc & Hc0 & Hoc & Hl). assert (H' := H). destruct H' as (_ & _ & _ & Hn & Ha & Hr).
  destruct (apply_function_spec f o c n a w1 Hn Ha Hm) as (b & E & Hb & Hs & V).
  exists (apply_replace r b), (list_groups n (o_rank o) (apply_replace r b)). split; [|split; [|split]].
  - unfold get_components_all. rewrite (obtained_run _ _ _ _ _ _ _ _ _ _ H). rewrite (bind_ok _ _ b w1 w1) by exact E. reflexivity.
  - unfold list_components. rewrite (obtained_run _ _ _ _ _ _ _ _ _ _ H). rewrite (bind_ok _ _ b w1 w1) by exact E. rewrite Hc0.
    rewrite (bind_ok _ _ c0 w1 w1) by reflexivity. rewrite (bind_ok _ _ oc w1 w1) by (apply getobj_ok, Hoc). rewrite Hl. reflexivity.
  - split; [apply awf_replace, Hb|]. split; [rewrite shape_replace; exact Hs|]. intros i Hi.
    rewrite aget_replace by (try apply Hb; rewrite Hs; exact Hi). rewrite (V i Hi). apply replace_value, P.
  - assert (Hq : cubic n (apply_replace r b)).
    { split; [apply awf_replace, Hb|]. unfold rank. rewrite shape_replace. apply Hb. }
    replace (o_rank o) with (rank (apply_replace r b)); [apply groups_list; assumption|].
    unfold rank. rewrite shape_replace, Hs. exact Hr.
Qed.
End Show.

(** *** Modes *)
Section Modes.
Context {A : AlgOps} {P : Printers A}.

Lemma lower_spelled s : forall word, (forall c, In c (list_ascii_of_string word) -> 97 <= nat_of_ascii c <= 122) ->
  (spelled s word <-> lower s = word).
Proof.
  induction s as [|c s IH]; intros [|d v] H; cbn; try (split; [tauto|discriminate]); [tauto|].
  assert (Hd := H d (or_introl eq_refl)). assert (Hv : forall c, In c (list_ascii_of_string v) -> 97 <= nat_of_ascii c <= 122) by (intros z Hz; apply H; right; exact Hz).
  assert (E : capital c d <-> lower_char c = d).
  { unfold lower_char, capital. destruct ((65 <=? nat_of_ascii c) && (nat_of_ascii c <=? 90)) eqn:B.
    - apply andb_prop in B as [B1 B2]. apply Nat.leb_le in B1, B2. split.
      + intros [-> |(k & Hk & E1 & E2)]; [lia|]. rewrite E1. replace (65 + k + 32) with (nat_of_ascii d) by lia. apply ascii_nat_embedding.
      + intros <-. right. exists (nat_of_ascii c - 65). split; [lia|]. split; [lia|]. rewrite nat_ascii_embedding by lia. lia.
    - split; [|auto]. intros [->|(k & Hk & E1 & E2)]; [reflexivity|]. exfalso. rewrite E1 in B. 
      assert (((65 <=? 65 + k) && (65 + k <=? 90)) = true) by (apply andb_true_intro; split; apply Nat.leb_le; lia). congruence. }
  rewrite (IH v Hv), E. split; [intros [-> ->]; reflexivity|]. intros Q. injection Q as -> ->. auto.
Qed.

Definition result_in (word : string) (a : arr) : output := in_mode word a.

Lemma small_word word : In word ["sympy"; "mathematica"; "latex"]%string -> forall c, In c (list_ascii_of_string word) -> 97 <= nat_of_ascii c <= 122.
Proof.
  intros H c. destruct H as [<-|[<-|[<-|[]]]]; cbn -[nat_of_ascii]; intros Hc;
  repeat (destruct Hc as [<-|Hc]; [vm_compute; lia|]); destruct Hc.
Qed.
Lemma check_mode_ok s word w : In word ["sympy"; "mathematica"; "latex"]%string -> spelled s word -> check_mode (VStr s) w = (Ok word, w).
Proof.
  intros I Sp. apply (lower_spelled s word (small_word word I)) in Sp. unfold check_mode. rewrite Sp.
  assert (E : existsb (String.eqb word) ["sympy"; "mathematica"; "latex"]%string = true); [|rewrite E; reflexivity].
  apply existsb_exists. exists word. split; [exact I|apply String.eqb_refl].
Qed.
Lemma check_mode_bad m w : (forall s word, m = VStr s -> In word ["sympy"; "mathematica"; "latex"]%string -> ~ spelled s word) ->
  check_mode m w = (Err (match m with VStr _ => EValueError | _ => ETypeError end), w).
Proof.
  intros H. destruct m; try reflexivity. unfold check_mode. destruct (existsb _ _) eqn:E; [|reflexivity].
  apply existsb_exists in E as (word & I & E). apply String.eqb_eq in E. exfalso. apply (H s word eq_refl I).
  apply lower_spelled; [apply small_word, I|exact E].
Qed.

Theorem mode_ok f r s word t coords idx w : In word ["sympy"; "mathematica"; "latex"]%string -> spelled s word ->
  get_components_mode f r (VStr s) t coords idx w =
  match get_components_all f r t coords idx w with
  | (Ok a, w') => (Ok (if String.eqb word "sympy" then OArray a else OText (
      if String.eqb word "latex" then p_latex (inl a)
      else p_mathematica (match shape a with [] => inr (aget a []) | _ => inl a end))), w')
  | (Err e, w') => (Err e, w')
  end.
Proof.
  intros I Sp. unfold get_components_mode. rewrite (bind_ok _ _ word w w) by (apply check_mode_ok; assumption).
  unfold mbind. destruct (get_components_all f r t coords idx w) as [[a|e] w']; [|reflexivity]. unfold mret, in_mode, rank.
  destruct I as [<-|[<-|[<-|[]]]]; cbn; try reflexivity. destruct (shape a); reflexivity.
Qed.
Theorem mode_bad f r m t coords idx w : (forall s word, m = VStr s -> In word ["sympy"; "mathematica"; "latex"]%string -> ~ spelled s word) ->
  get_components_mode f r m t coords idx w = (Err (match m with VStr _ => EValueError | _ => ETypeError end), w).
Proof. intros H. unfold get_components_mode, mbind. rewrite (check_mode_bad m w H). reflexivity. Qed.

Theorem coordinates_mode_ok s word t o w : In word ["sympy"; "mathematica"; "latex"]%string -> spelled s word -> obj_of w t = Some o ->
  exists a, awf a /\ shape a = [length (o_syms o)] /\ (forall i, i < length (o_syms o) -> aget a [i] = ksym (nth i (o_syms o) ""%string)) /\
  exists b, shown_as a b /\
  coordinates_mode (VStr s) t w = (Ok (if String.eqb word "sympy" then OArray a else OText (
      if String.eqb word "latex" then p_latex (inl b) else p_mathematica (inl a))), w).
Proof.
  intros I Sp Ho. set (n := length (o_syms o)). set (a := mkArr [n] (map ksym (o_syms o))).
  assert (W : awf a) by (unfold awf, a, n; cbn; rewrite map_length; lia).
  exists a. split; [exact W|]. split; [reflexivity|]. split.
  { intros i Hi. unfold aget, a. cbn. rewrite Nat.mul_1_r, Nat.add_0_r. rewrite (nth_indep _ k0 (ksym ""%string)) by (rewrite map_length; exact Hi). apply map_nth. }
  exists (mkArr [n; 1] (map ksym (o_syms o))). split.
  - apply (shown_column n a W eq_refl).
  - unfold coordinates_mode. rewrite (bind_ok _ _ word w w) by (apply check_mode_ok; assumption). rewrite (bind_ok _ _ o w w) by (apply getobj_ok, Ho).
    destruct I as [<-|[<-|[<-|[]]]]; cbn -[as_column]; try reflexivity. fold n. fold a.
    rewrite (bind_ok _ _ (mkArr [n; 1] (data a)) w w) by (apply column_run; [exact W|reflexivity]). reflexivity.
Qed.
End Modes.

(** *** Curves *)
Section Curves.
Context {A : AlgOps} {L : AlgLaws A} {D : DiffLaws A} {S : SubsLaws A} {Y : SymLaws A} {V : SelfLaws A} {N : NumSubs A} {NL : NumSubsLaws A N}.

Lemma awf_curve time p xs r a : awf a -> awf (apply_curve time p xs r a).
Proof. intros W. destruct r; [|exact W]. destruct time; cbn; repeat apply awf_amap; exact W. Qed.
Lemma shape_curve time p xs r a : shape (apply_curve time p xs r a) = shape a.
Proof. destruct r; [|reflexivity]. destruct time; reflexivity. Qed.
Lemma curve_value time p xs r a idx : clear_names p xs -> curve_argument p xs r -> awf a -> inb (shape a) idx = true ->
  keq (aget (apply_curve time p xs r a) idx) (on_curve time p xs r (aget a idx)).
Proof.
  intros C G W Hi. destruct r as [r|]; [|reflexivity]. cbn in G. unfold apply_curve, on_curve.
  assert (E : forall e, keq (replace_curve p xs r e) (replaced p xs r e)) by (intros e; apply replace_curve_replaced; assumption).
  destruct time.
  - rewrite aget_amap by (try apply awf_amap; assumption). rewrite aget_amap by assumption. unfold at_parameter.
    rewrite (E (aget a idx)). reflexivity.
  - rewrite aget_amap by assumption. apply E.
Qed.

Lemma curve_zero time p xs r : curve_argument p xs r -> keq (on_curve time p xs r k0) k0.
Proof.
  intros _. destruct r as [r|]; [|reflexivity]. cbn.
  assert (E : keq (replaced p xs r k0) k0) by (apply hom_0, hom_subs_seq).
  destruct time; [|exact E]. unfold at_parameter. rewrite E. change (keq (subs_seq [(p ++ "ddot", k0); (p ++ "dot", k1)]%string k0) k0). apply hom_0, hom_subs_seq.
Qed.
Lemma on_curve_proper time p xs r e e' : keq e e' -> keq (on_curve time p xs r e) (on_curve time p xs r e').
Proof.
  intros E. destruct r as [r|]; [|exact E]. cbn.
  assert (E1 : keq (replaced p xs r e) (replaced p xs r e')) by (apply (hom_proper _ (hom_subs_seq _)), E).
  destruct time; [|exact E1]. unfold at_parameter. rewrite E1. reflexivity.
Qed.
Lemma parameter_run (time : bool) param p xs w : (if time then hd_error xs = Some p else param = p) -> parameter time param xs w = (Ok p, w).
Proof. unfold parameter. destruct time; intros E; [rewrite E; reflexivity|subst; reflexivity]. Qed.

Section One.
Variables (w : world) (t : oid) (coords : option oid) (idx : option (list Z)) (c : oid) (n : nat) (a : arr) (w1 : world) (o oc : obj).
Variables (time : bool) (param p : string) (f : option (K -> K)) (r : option (list (string * K))).
Hypothesis H : obtained w t coords idx c n a w1 o.
Hypothesis Hoc : obj_of w1 c = Some oc.
Hypothesis Hp : if time then hd_error (o_syms oc) = Some p else param = p.
Hypothesis C : clear_names p (o_syms oc).
Hypothesis G : curve_argument p (o_syms oc) r.
Hypothesis Hm : f <> None -> ~ made_elsewhere o c.

Lemma curve_rest : exists b, cubic n b /\ shape b = shape a /\ apply_function f o c a w1 = (Ok b, w1) /\
  get_curve_all time param f r t coords idx w = (Ok (amap (value_function p (o_syms oc)) (apply_curve time p (o_syms oc) r b)), w1) /\
  pointwise (fun e => on_curve time p (o_syms oc) r (applied f e)) a (apply_curve time p (o_syms oc) r b) /\
  pointwise (as_functions p (o_syms oc)) (apply_curve time p (o_syms oc) r b) (amap (value_function p (o_syms oc)) (apply_curve time p (o_syms oc) r b)) /\
  (n_coordinates w1 o n -> exists g, list_curve time param f r t coords idx w = (Ok g, w1) /\ lists (apply_curve time p (o_syms oc) r b) g /\
     (exact_zero_test -> lists_once (apply_curve time p (o_syms oc) r b) g)).
Proof.
  assert (H' := H). destruct H' as (_ & _ & _ & Hn & Ha & Hr).
  destruct (apply_function_spec f o c n a w1 Hn Ha Hm) as (b & E & Hb & Hs & Vb). exists b. split; [exact Hb|]. split; [exact Hs|]. split; [exact E|]. split; [|split; [|split]].
  - unfold get_curve_all. rewrite (obtained_run _ _ _ _ _ _ _ _ _ _ H). rewrite (bind_ok _ _ b w1 w1) by exact E.
    rewrite (bind_ok _ _ oc w1 w1) by (apply getobj_ok, Hoc). rewrite (bind_ok _ _ p w1 w1) by (apply parameter_run, Hp). reflexivity.
  - split; [apply awf_curve, Hb|]. split; [rewrite shape_curve; exact Hs|]. intros i Hi.
    rewrite curve_value by (try apply Hb; try assumption; rewrite Hs; exact Hi). rewrite (Vb i Hi). reflexivity.
  - apply amap_pointwise; [apply awf_curve, Hb|]. intros e. apply function_as_functions, C.
  - intros (c0 & oc0 & Hc0 & Hoc0 & Hl). exists (list_groups n (o_rank o) (apply_curve time p (o_syms oc) r b)). split.
    + unfold list_curve. rewrite (obtained_run _ _ _ _ _ _ _ _ _ _ H). rewrite (bind_ok _ _ b w1 w1) by exact E.
      rewrite (bind_ok _ _ oc w1 w1) by (apply getobj_ok, Hoc). rewrite (bind_ok _ _ p w1 w1) by (apply parameter_run, Hp). cbv zeta. rewrite Hc0.
      rewrite (bind_ok _ _ c0 w1 w1) by reflexivity. rewrite (bind_ok _ _ oc0 w1 w1) by (apply getobj_ok, Hoc0). rewrite Hl. reflexivity.
    + assert (Hq : cubic n (apply_curve time p (o_syms oc) r b)).
      { split; [apply awf_curve, Hb|]. unfold rank. rewrite shape_curve. apply Hb. }
      replace (o_rank o) with (rank (apply_curve time p (o_syms oc) r b)); [apply groups_list; assumption|].
      unfold rank. rewrite shape_curve, Hs. exact Hr.
Qed.

Lemma column_curve m (b : arr) : mkArr [m; 1] (data (apply_curve time p (o_syms oc) r b)) = apply_curve time p (o_syms oc) r (mkArr [m; 1] (data b)).
Proof. destruct r; [|reflexivity]. destruct time; reflexivity. Qed.

Theorem curve_shown : (f <> None -> rank a <> 1) ->
  exists s s' b, get_curve_all time param f r t coords idx w = (Ok b, w1) /\ show_curve time param f r t coords idx w = (Ok s', w1) /\
    pointwise (fun e => on_curve time p (o_syms oc) r (applied f e)) a s /\ shown_as s s' /\ pointwise (as_functions p (o_syms oc)) s b.
Proof.
  intros R. destruct curve_rest as (b & Hb & Hs & E & Eg & V1 & V2 & _). assert (H' := H). destruct H' as (_ & _ & _ & Hn & Ha & Hr).
  exists (apply_curve time p (o_syms oc) r b).
  assert (Run : forall x y, shown_form (o_rank o) a w1 = (Ok x, w1) -> apply_function f o c x w1 = (Ok y, w1) ->
    show_curve time param f r t coords idx w = (Ok (apply_curve time p (o_syms oc) r y), w1)).
  { intros x y Ex Ey. unfold show_curve. rewrite (obtained_run _ _ _ _ _ _ _ _ _ _ H). rewrite (bind_ok _ _ x w1 w1) by exact Ex.
    rewrite (bind_ok _ _ y w1 w1) by exact Ey. rewrite (bind_ok _ _ oc w1 w1) by (apply getobj_ok, Hoc). rewrite (bind_ok _ _ p w1 w1) by (apply parameter_run, Hp). reflexivity. }
  destruct (Nat.eq_dec (rank a) 1) as [Ra|Ra].
  - assert (Ef : f = None) by (destruct f; [exfalso; exact (R ltac:(discriminate) Ra)|reflexivity]).
    assert (Es := rank1_shape n a Ha Ra). assert (b = a) as -> by (rewrite Ef in E; injection E as <-; reflexivity).
    exists (apply_curve time p (o_syms oc) r (mkArr [n; 1] (data a))). eexists. split; [exact Eg|]. split; [|split; [exact V1|split; [|exact V2]]].
    + apply (Run (mkArr [n; 1] (data a))); [|rewrite Ef; reflexivity]. unfold shown_form. rewrite <- Hr, Ra. apply column_run; [apply Ha|exact Es].
    + rewrite <- column_curve. apply shown_column; [apply awf_curve, Ha|rewrite shape_curve; exact Es].
  - exists (apply_curve time p (o_syms oc) r b). eexists. split; [exact Eg|]. split; [|split; [exact V1|split; [|exact V2]]].
    + apply (Run a b); [|exact E]. unfold shown_form. rewrite <- Hr. destruct (Nat.eqb_spec (rank a) 1); [contradiction|reflexivity].
    + apply shown_other; [apply awf_curve, Hb|]. unfold rank. rewrite shape_curve, Hs. exact Ra.
Qed.

Theorem curve_listed : n_coordinates w1 o n ->
  exists s g b, get_curve_all time param f r t coords idx w = (Ok b, w1) /\ list_curve time param f r t coords idx w = (Ok g, w1) /\
    pointwise (fun e => on_curve time p (o_syms oc) r (applied f e)) a s /\ lists s g /\ (exact_zero_test -> lists_once s g) /\
    pointwise (as_functions p (o_syms oc)) s b.
Proof.
  intros Hd. destruct curve_rest as (b & Hb & Hs & E & Eg & V1 & V2 & Hl). destruct (Hl Hd) as (g & El & Lg & Lo).
  exists (apply_curve time p (o_syms oc) r b), g. eexists. split; [exact Eg|]. auto 6.
Qed.

Theorem curve_square : forall h, f = Some h -> 2 <= n -> rank a = 1 ->
  exists s, show_curve time param f r t coords idx w = (Ok s, w1) /\ shape s = [n; n] /\
    forall i j, i < n -> j < n -> keq (aget s [i; j]) (if j =? 0 then on_curve time p (o_syms oc) r (h (aget a [i])) else k0).
Proof.
  intros h Ef Hn R. assert (H' := H). destruct H' as (_ & _ & _ & Hn1 & Ha & Hr). assert (Es := rank1_shape n a Ha R).
  assert (Nm : ~ made_elsewhere o c) by (intros [Z _]; rewrite <- Hr in Z; congruence).
  destruct (map_column n (data a) h Hn) as (q & Eq & Wq & Sq & Vq).
  { destruct Ha as [W _]. unfold awf in W. rewrite Es in W. cbn in W. lia. }
  exists (apply_curve time p (o_syms oc) r q). split; [|split; [rewrite shape_curve; exact Sq|]].
  - unfold show_curve. rewrite (obtained_run _ _ _ _ _ _ _ _ _ _ H). unfold shown_form. rewrite <- Hr, R. cbn [Nat.eqb].
    rewrite (bind_ok _ _ _ w1 w1) by (apply column_run; [apply Ha|exact Es]).
    rewrite (bind_ok _ _ q w1 w1) by (rewrite Ef; unfold apply_function; rewrite (here_expr _ _ Nm), Eq; reflexivity).
    rewrite (bind_ok _ _ oc w1 w1) by (apply getobj_ok, Hoc). rewrite (bind_ok _ _ p w1 w1) by (apply parameter_run, Hp). reflexivity.
  - intros i j Hi Hj. assert (Hin : inb (shape q) [i; j] = true) by (rewrite Sq; apply inb_cons_true; split; [exact Hi|]; apply inb_cons_true; split; [exact Hj|reflexivity]).
    rewrite curve_value by assumption. rewrite (Vq i j Hi Hj).
    destruct (j =? 0); [|apply curve_zero, G].
    replace (aget a [i]) with (nth i (data a) k0); [reflexivity|]. unfold aget. rewrite Es. cbn. f_equal. lia.
Qed.
End One.
End Curves.
