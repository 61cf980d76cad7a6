(** Concrete sessions for the properties of export and import. *)
From Coq Require Import QArith Ascii.
From Verif Require Import Base Alg Alg_P Arr Arr_P Spec TensorM Inst Ex WorldM SpecWorld World_P Registry_P Typed_P ExWorld Witness_World_P
  LexM ParseM InterpM SpecParse Term2_P Calc_P ExportM SpecExport Export_P Export2_P Export3_P Export4_P Export5_P Export6_P Export7_P Export8_P ExExport.
Import List.
Local Open Scope nat_scope.

(** *** Statements in terms of sessions *)
Section General.
Context {A : AlgOps} {O : PyOps} {C : CodeOps}.

Lemma fresh_one_more w k o : registry_ok w -> one_more w (fresh_world w k o) (length (heap w)) k o.
Proof.
  intros R. destruct (fresh_clean w k o R) as (H1 & H2 & H3 & _ & H5). split; [exact H1|]. split; [exact H2|]. split; [exact H3|].
  split; [apply cls_fresh_new|]. split; [|exact H5]. rewrite obj_of_fresh, Nat.eqb_refl. reflexivity.
Qed.

Theorem tensor_again (L : CodeLaws) w n t c m k o a : k <> CMetric -> tensor_back w n t c m k o a -> o_name o <> "Options"%string ->
  exists s, export_to_string t w = (Ok s, w) /\
  forall w2 c2 cs m2 ms, registry_ok w2 -> objects_named w2 (name_in w c) = c2 :: cs -> coordinate_system w2 c2 n ->
    objects_named w2 (name_in w m) = ms ++ [m2] -> cls_of w2 m2 = Some CMetric ->
    exists i w3, ends (fun f => import_from_string f s) w2 (Ok i, w3) /\ one_more w2 w3 i k (tensor_copy o c2 m2 a).
Proof.
  intros H1 H2 H3. destruct (tensor_round_trip L w n t c m k o a H1 H2 H3) as (s & E & H). exists s. split; [exact E|].
  intros w2 c2 cs m2 ms R H4 H5 H6 H7. eexists _, _. split; [exact (H w2 c2 cs m2 ms R H4 H5 H6 H7)|]. apply fresh_one_more, R.
Qed.

Theorem metric_again (L : CodeLaws) w n t c o a gi : tensor_back w n t c t CMetric o a -> o_name o <> "Options"%string ->
  (o_indices o = [-1; -1]%Z \/ o_indices o = [1; 1]%Z) -> accepted_metric n a gi ->
  exists s, export_to_string t w = (Ok s, w) /\
  forall w2 c2 cs, registry_ok w2 -> objects_named w2 (name_in w c) = c2 :: cs -> coordinate_system w2 c2 n ->
    exists i w3, ends (fun f => import_from_string f s) w2 (Ok i, w3) /\ one_more w2 w3 i CMetric (metric_copy o i c2 a gi).
Proof.
  intros H1 H2 H3 H4. destruct (metric_round_trip L w n t c o a gi H1 H2 H3 H4) as (s & E & H). exists s. split; [exact E|].
  intros w2 c2 cs R H5 H6. eexists _, _. split; [exact (H w2 c2 cs R H5 H6)|]. apply fresh_one_more, R.
Qed.

Theorem coords_again (L : CodeLaws) w n t o : coords_back w n t o -> o_name o <> "Options"%string ->
  exists s, export_to_string t w = (Ok s, w) /\
  forall w2, registry_ok w2 -> Forall (fun e => objects_named w2 (name_in w (fst e)) <> []) (o_trans o) ->
    exists i w3, ends (fun f => import_from_string f s) w2 (Ok i, w3) /\
      one_more w2 w3 i CCoordinates (coords_copy o i n (found_rules w w2 o)).
Proof.
  intros H1 H2. destruct (coords_round_trip L w n t o H1 H2) as (s & E & H). exists s. split; [exact E|].
  intros w2 R F. eexists _, _. split; [exact (H w2 R F)|]. apply fresh_one_more, R.
Qed.

(** One run that does not run out of fuel settles the matter. *)
Lemma read_same n m s : n <= m -> parse n (lex (normalise s)) <> Err EFuel -> parse_str m s = parse_str n s.
Proof.
  intros L F. unfold parse_str. assert (E : parse m (lex (normalise s)) = parse n (lex (normalise s))); [|now rewrite E].
  induction L as [|m L IH]; [reflexivity|]. destruct (parse_grows m (lex (normalise s))) as [E|E]; congruence.
Qed.

Definition enough (n : nat) (s : text) : bool := match parse n (lex (normalise s)) with Err EFuel => false | _ => true end.
Lemma enough_spec n s : enough n s = true -> parse n (lex (normalise s)) <> Err EFuel.
Proof. unfold enough. intros H E. rewrite E in H. discriminate. Qed.

Lemma import_ends n s w : enough n s = true -> ends (fun f => import_from_string f s) w (import_from_string n s w).
Proof.
  intros H. exists n. intros m L. unfold import_from_string, string_to_tensor. rewrite (read_same n m s L (enough_spec n s H)). reflexivity.
Qed.
Lemma import_all_ends n s w : enough n s = true -> ends (fun f => import_all_from_string f s) w (import_all_from_string n s w).
Proof.
  intros H. exists n. intros m L. unfold import_all_from_string, string_to_tensor. rewrite (read_same n m s L (enough_spec n s H)). reflexivity.
Qed.

Theorem unreadable_all s w e : registry_ok w -> settles (fun n => parse_str n s) (Err e) ->
  ends (fun n => import_from_string n s) w (Err e, w) /\
  exists w', ends (fun n => import_all_from_string n s) w (Err e, w') /\ insts w' = [].
Proof.
  intros R (n & H). split; [exists n; intros m L; apply (unreadable_import m s w e R (H m L))|].
  destruct (clear_instances_spec w R) as (w0 & Cl & I0). exists w0. split; [|exact I0]. exists n. intros m L.
  unfold import_all_from_string. rewrite (bind_to _ _ _ _ _ Cl). unfold string_to_tensor, mbind, mlift. now rewrite (H m L).
Qed.

(** The empty session. *)
Definition empty_text : text := chars "<|" ++ in_quotes "Options" ++ chars "-><|" ++ in_quotes "OGReVersion" ++ chars "->"
         ++ in_quotes version_text ++ chars "|>," ++ chars "|>".
Definition options_tree : node :=
  NAssoc [NStr (in_quotes "Options")] [NAssoc [NStr (in_quotes "OGReVersion")] [NStr (in_quotes version_text)]].

Theorem empty_again w : insts w = [] -> exists s, export_all_to_string w = (Ok s, w) /\
  forall w2, registry_ok w2 -> exists w3, ends (fun n => import_all_from_string n s) w2 (Ok [], w3) /\ insts w3 = [].
Proof.
  intros E. exists empty_text. split; [unfold export_all_to_string; rewrite E; reflexivity|]. intros w2 R2.
  destruct (clear_instances_spec w2 R2) as (w0 & Cl & I0). exists w0. split; [|exact I0]. exists 40. intros m L.
  assert (T : string_to_tensor m empty_text w0 = (Ok [], w0)).
  { unfold string_to_tensor. assert (En : enough 40 empty_text = true) by (vm_compute; reflexivity). rewrite (read_same 40 m _ L (enough_spec _ _ En)).
    assert (P : exists d, parse_str 40 empty_text = Ok (VD [(VS (chars "Options"), VD d)])) by (eexists; vm_compute; reflexivity). destruct P as (d & P).
    rewrite P. reflexivity. }
  unfold import_all_from_string. rewrite (bind_to _ _ _ _ _ Cl), (bind_to _ _ _ _ _ T). cbv beta iota delta [mfor mmap mbind mret]. rewrite I0. reflexivity.
Qed.
End General.

(** *** The concrete reader *)
Lemma q_same_spec x y : q_same x y = true <-> x = y.
Proof.
  unfold q_same. destruct x as [a b], y as [c d]. cbn. rewrite andb_true_iff, Z.eqb_eq, Pos.eqb_eq. split; [intros [-> ->]; reflexivity|]. intros E. injection E; auto.
Qed.
Lemma p_same_spec x : forall y, p_same x y = true <-> x = y.
Proof.
  induction x; intros []; cbn [p_same]; try (split; [discriminate|intros E; discriminate]);
    rewrite ?andb_true_iff, ?q_same_spec, ?String.eqb_eq, ?IHx, ?IHx1, ?IHx2.
  all: split; [intros H; try destruct H; subst; reflexivity|intros E; injection E; auto].
Qed.
Lemma x_same_spec x y : x_same x y = true <-> x = y.
Proof.
  destruct x, y; cbn [x_same]; try (split; [discriminate|intros E; discriminate]); rewrite ?andb_true_iff, ?p_same_spec, ?String.eqb_eq.
  all: split; [intros H; try destruct H; subst; reflexivity|intros E; injection E; auto].
Qed.

#[export] Instance PolyCodeLaws : @CodeLaws PolyOps PolyPy PolyCode.
Proof.
  constructor.
  - exact x_same_spec.
  - intros [[q|s'| | | |]|s' p] s E; try discriminate. cbn in E. injection E as ->. reflexivity.
  - exists (XP (PC (inject_Z 1))), (XP (PC (inject_Z (-1)))). repeat split.
Qed.

(** *** Checkers *)
Fixpoint words_okb (e : exp) : bool :=
  match e with
  | EWord v | EGreek v => match v with [] => false | _ => forallb alnum v end
  | EAdd a b | ESub a b | EMul a b | EDiv a b | EPow a b | EBy a b | EPowS a b => words_okb a && words_okb b
  | ENeg a | EParen a => words_okb a
  | ECall _ _ _ => false
  end.
Lemma words_okb_spec e : words_okb e = true -> words_ok e.
Proof.
  induction e; cbn; try (rewrite andb_true_iff; intros []; split; auto; fail); try (intros H; auto; fail);
    try (destruct v; [discriminate|]; intros H; split; [discriminate|exact H]); discriminate.
Qed.

Definition goodb (p : pexp) : bool :=
  words_okb (code_exp p) && match @meaning PolyPy (code_exp p) with Ok (XP q) => p_same q p | _ => false end.
Lemma goodb_spec (p : pexp) : goodb p = true -> @reads PolyOps PolyPy PolyCode p (XP p).
Proof.
  unfold goodb. intros H. apply andb_prop in H as [H1 H2]. exists true, (code_exp p). split; [apply words_okb_spec, H1|]. split; [reflexivity|].
  destruct (@meaning PolyPy (code_exp p)) as [[q|]|]; try discriminate. apply p_same_spec in H2. now subst q.
Qed.
Lemma scalar_backb p : goodb p = true -> scalar_back (p : @K PolyOps).
Proof. intros H. exists (XP p). split; [apply goodb_spec, H|reflexivity]. Qed.
Lemma symbol_backb s : goodb (PV s) = true -> @symbol_back PolyOps PolyPy PolyCode s.
Proof. intros H. exists (XP (PV s)). split; [apply (goodb_spec (PV s)), H|reflexivity]. Qed.
Definition rule_goodb (r : string * @K PolyOps) : bool := goodb (PV (fst r)) && goodb (snd r) && negb (p_same (PV (fst r)) (snd r)).
Lemma rule_backb r : rule_goodb r = true -> rule_back r.
Proof.
  destruct r as [s p]. unfold rule_goodb. cbn [fst snd]. intros H. apply andb_prop in H as [H H3]. apply andb_prop in H as [H1 H2]. apply negb_true_iff in H3.
  exists (XP (PV s)), (XP p), (XEq s p). split; [apply (goodb_spec (PV s)), H1|]. split; [apply goodb_spec, H2|]. split; [|reflexivity]. cbn [o_eq PolyPy p_equation]. now rewrite H3.
Qed.

Definition array_backb (n : nat) (a : @arr PolyOps) : bool :=
  (length (data a) =? prodn (shape a)) && (if list_eq_dec Nat.eq_dec (shape a) (repeat n (rank a)) then true else false) && forallb goodb (data a).
Lemma array_backb_spec n a : array_backb n a = true -> array_back n a.
Proof.
  unfold array_backb. intros H. apply andb_prop in H as [H H3]. apply andb_prop in H as [H1 H2]. apply Nat.eqb_eq in H1. destruct (list_eq_dec _ _ _); [|discriminate].
  split; [split; assumption|]. rewrite forallb_forall in H3. apply Forall_forall. intros p Hp. apply scalar_backb, H3, Hp.
Qed.

Definition plainb (s : string) : bool :=
  let t := chars s in
  match t with [] => false | _ => true end && forallb (fun c => negb (c =? dquote)%char) t && negb (last t " "%char =? squote)%char
  && no_backslash t && single_spaces false (t ++ [dquote]).
Lemma plainb_spec s : plainb s = true -> plain s.
Proof.
  unfold plainb, plain, plain_name, quotable. destruct (chars s) as [|c t]; [discriminate|]. cbn [andb]. intros H.
  apply andb_prop in H as [H H4]. apply andb_prop in H as [H H3]. apply andb_prop in H as [H1 H2]. repeat split; auto; [discriminate|].
  intros E. rewrite E in H2. discriminate.
Qed.

Definition liveobj (w : @world PolyOps) (i : oid) : bool := match obj_of w i with Some _ => true | None => false end.
Lemma liveobj_spec w i : liveobj w i = true -> obj_of w i <> None.
Proof. unfold liveobj. destruct (obj_of w i); [discriminate|discriminate]. Qed.

Definition keysb {V} (w : @world PolyOps) (d : list (oid * V)) : bool :=
  once (map (fun e => name_in w (fst e)) d) && forallb (fun e => liveobj w (fst e) && plainb (name_in w (fst e))) d.
Lemma keysb_spec {V} w (d : list (oid * V)) : keysb w d = true -> keys_named w d.
Proof.
  unfold keysb. intros H. apply andb_prop in H as [H1 H2]. split; [apply once_spec, H1|]. rewrite forallb_forall in H2. apply Forall_forall. intros e He.
  specialize (H2 e He). apply andb_prop in H2 as [H2 H3]. split; [apply liveobj_spec, H2|apply plainb_spec, H3].
Qed.

Fixpoint once_cfg (l : list (list Z)) : bool :=
  match l with [] => true | x :: l' => negb (existsb (cfg_eqb x) l') && once_cfg l' end.
Lemma once_cfg_spec l : once_cfg l = true -> NoDup l.
Proof.
  induction l as [|x l IH]; intros H; [constructor|]. cbn in H. apply andb_prop in H as [H1 H2]. constructor; [|apply IH, H2].
  intros X. apply negb_true_iff in H1. assert (E : existsb (cfg_eqb x) l = true) by (apply existsb_exists; exists x; split; [exact X|apply cfg_eqb_refl]). congruence.
Qed.

Definition cfgb (l : list Z) : bool := forallb (fun z => (z =? -1) || (z =? 1))%Z l.
Definition componentsb (w : @world PolyOps) (n : nat) (o : obj) : bool :=
  keysb w (o_comps o) &&
  forallb (fun e => clsb w (fst e) CCoordinates && once_cfg (map fst (snd e)) &&
                    forallb (fun ia => cfgb (fst ia) && array_backb n (snd ia)) (snd e)) (o_comps o).
Lemma componentsb_spec w n o : componentsb w n o = true -> components_back w n o.
Proof.
  unfold componentsb. intros H. apply andb_prop in H as [H1 H2]. split; [apply keysb_spec, H1|]. rewrite forallb_forall in H2. apply Forall_forall. intros e He.
  specialize (H2 e He). apply andb_prop in H2 as [H2 H4]. apply andb_prop in H2 as [H2 H3]. split; [apply clsb_spec, H2|]. split; [apply once_cfg_spec, H3|].
  rewrite forallb_forall in H4. apply Forall_forall. intros ia Hi. specialize (H4 ia Hi). apply andb_prop in H4 as [H4 H5]. split; [apply valid_cfg_forallb, H4|apply array_backb_spec, H5].
Qed.

Definition nonempty (s : string) : bool := match s with EmptyString => false | _ => true end.
Definition labelb (o : @obj PolyOps) : bool := plainb (o_name o) && nonempty (WorldM.o_symbol o) && goodb (PV (WorldM.o_symbol o)).
Lemma labelb_spec o : labelb o = true -> label_back o.
Proof.
  unfold labelb. intros H. apply andb_prop in H as [H H3]. apply andb_prop in H as [H1 H2]. split; [apply plainb_spec, H1|]. split; [|apply symbol_backb, H3].
  intros E. rewrite E in H2. discriminate.
Qed.

(** Portraits are taken from the session. *)
Definition no_obj : @obj PolyOps := mkObj "" "" [] 0 None None [] [] [] [].
Definition look (w : @world PolyOps) (i : oid) : obj := match obj_of w i with Some o => o | None => no_obj end.
Lemma look_spec w i : liveobj w i = true -> obj_of w i = Some (look w i).
Proof. unfold liveobj, look. destruct (obj_of w i); [reflexivity|discriminate]. Qed.
Definition the {X} (d : X) (x : option X) : X := match x with Some y => y | None => d end.
Definition coords_at (w : @world PolyOps) (i : oid) : oid := the 0 (o_coords (look w i)).
Definition metric_at (w : @world PolyOps) (i : oid) : oid := the 0 (o_metric (look w i)).
Definition comps_at (w : @world PolyOps) (i : oid) : arr :=
  the (mkArr [] []) (dget cfg_eqb (o_indices (look w i)) (the [] (dget Nat.eqb (coords_at w i) (o_comps (look w i))))).
Definition inverse_at (w : @world PolyOps) (i : oid) : arr := mkArr [2; 2] (the [] (minv 2 (data (comps_at w i)))).
Definition picture (w : @world PolyOps) (i : oid) : portrait :=
  match cls_of w i with
  | Some CCoordinates => PCoords 2 (look w i)
  | Some CMetric => PMetric 2 (coords_at w i) (look w i) (comps_at w i) (inverse_at w i)
  | Some k => PTensor 2 (coords_at w i) (metric_at w i) k (look w i) (comps_at w i)
  | None => PCoords 0 (look w i)
  end.

Definition is_id (x : option oid) (i : oid) : bool := match x with Some j => j =? i | None => false end.
Lemma is_id_spec x i : is_id x i = true -> x = Some i.
Proof. destruct x; cbn; [|discriminate]. intros H. apply Nat.eqb_eq in H. now subst. Qed.

Definition tensorb (w : @world PolyOps) (i : oid) : bool :=
  let o := look w i in
  liveobj w i && labelb o && componentsb w 2 o && is_id (o_coords o) (coords_at w i) && liveobj w (coords_at w i) && plainb (name_in w (coords_at w i))
  && is_id (o_metric o) (metric_at w i) && liveobj w (metric_at w i) && plainb (name_in w (metric_at w i))
  && cfgb (o_indices o) && (length (o_indices o) =? rank (comps_at w i))
  && match dget Nat.eqb (coords_at w i) (o_comps o) with Some d => match dget cfg_eqb (o_indices o) d with Some _ => true | None => false end | None => false end
  && negb (is_expr o (coords_at w i)).
Lemma array_made (o : @obj PolyOps) c : is_expr o c = false -> made_in o c.
Proof.
  unfold is_expr, made_in. intros H E. rewrite E in H. cbn [Nat.eqb andb] in H.
  destruct (o_comps o) as [|[c0 d] l]; [discriminate|]. destruct (Nat.eqb_spec c0 c) as [->|]; [eauto|discriminate].
Qed.
Lemma tensorb_spec w i k : tensorb w i = true -> k <> CCoordinates -> cls_of w i = Some k ->
  tensor_back w 2 i (coords_at w i) (metric_at w i) k (look w i) (comps_at w i).
Proof.
  unfold tensorb; cbv zeta. intros H Nk Hk. repeat (match type of H with andb _ _ = true => let G := fresh "G" in apply andb_prop in H as [H G] end).
  unfold tensor_back. split; [exact Nk|]. split; [exact Hk|]. split; [apply look_spec, H|]. split; [apply labelb_spec; assumption|]. split; [apply componentsb_spec; assumption|].
  split; [lia|]. split; [apply is_id_spec; assumption|]. split; [apply liveobj_spec; assumption|]. split; [apply plainb_spec; assumption|].
  split; [apply is_id_spec; assumption|]. split; [apply liveobj_spec; assumption|]. split; [apply plainb_spec; assumption|].
  split; [apply valid_cfg_forallb; assumption|]. split; [apply Nat.eqb_eq; assumption|].
  split; [|apply array_made; destruct (is_expr _ _); [discriminate|reflexivity]].
  unfold default_components, comps_at. destruct (dget Nat.eqb (coords_at w i) (o_comps (look w i))) as [d|]; [|discriminate]. exists d. split; [reflexivity|]. cbn [the].
  destruct (dget cfg_eqb _ d); [reflexivity|discriminate].
Qed.

Definition systemb (w : @world PolyOps) (c : oid) (n : nat) : bool :=
  clsb w c CCoordinates && liveobj w c &&
  match dget Nat.eqb c (o_comps (look w c)) with
  | Some d => match dget cfg_eqb [1]%Z d with Some x => length (data x) =? n | None => false end
  | None => false
  end.
Lemma systemb_spec w c n : systemb w c n = true -> coordinate_system w c n.
Proof.
  unfold systemb. intros H. apply andb_prop in H as [H H3]. apply andb_prop in H as [H1 H2]. split; [apply clsb_spec, H1|].
  destruct (dget Nat.eqb c (o_comps (look w c))) as [d|] eqn:Ed; [|discriminate]. destruct (dget cfg_eqb _ d) as [x|] eqn:Ex; [|discriminate].
  exists (look w c), d, x. split; [apply look_spec, H2|]. split; [exact Ed|]. split; [exact Ex|]. apply Nat.eqb_eq, H3.
Qed.

Definition comps_sameb (d : list (oid * list (list Z * @arr PolyOps))) (t : oid) (n : nat) (syms : list string) : bool :=
  match d with
  | [(i, [(cfg, a)])] => (i =? t) && cfg_eqb cfg [1]%Z && (if list_eq_dec Nat.eq_dec (shape a) [n] then true else false)
      && (length (data a) =? length syms) && forallb (fun x => p_same (fst x) (snd x)) (combine (data a : list pexp) (map PV syms))
  | _ => false
  end.
Lemma combine_same (l l' : list pexp) : length l = length l' -> forallb (fun x => p_same (fst x) (snd x)) (combine l l') = true -> l = l'.
Proof.
  revert l'. induction l as [|x l IH]; intros [|y l'] H F; try discriminate; [reflexivity|]. cbn in F. apply andb_prop in F as [F1 F2]. apply p_same_spec in F1. subst y.
  f_equal. apply IH; [injection H; auto|exact F2].
Qed.
Lemma comps_sameb_spec d t n syms : comps_sameb d t n syms = true -> d = [(t, [([1]%Z, mkArr [n] (map ksym syms))])].
Proof.
  unfold comps_sameb. destruct d as [|[i [|[cfg a] [|? ?]]] [|? ?]]; try discriminate. intros H.
  apply andb_prop in H as [H H5]. apply andb_prop in H as [H H4]. apply andb_prop in H as [H H3]. apply andb_prop in H as [H1 H2].
  apply Nat.eqb_eq in H1. apply cfg_eqb_spec in H2. destruct (list_eq_dec _ _ _); [|discriminate]. apply Nat.eqb_eq in H4. subst.
  destruct a as [sh da]. cbn [shape data] in *. subst sh. apply combine_same in H5; [|rewrite map_length; exact H4]. now subst da.
Qed.

Definition coordsb (w : @world PolyOps) (i : oid) : bool :=
  let o := look w i in
  clsb w i CCoordinates && liveobj w i && labelb o && comps_sameb (o_comps o) i 2 (o_syms o) && cfg_eqb (o_indices o) [1]%Z && (length (o_syms o) =? 2)
  && forallb (fun s => goodb (PV s)) (o_syms o) && keysb w (o_jacs o)
  && forallb (fun e => let '(j, i, c) := snd e in array_backb 2 j && array_backb 2 i && array_backb 2 c) (o_jacs o)
  && keysb w (o_trans o)
  && forallb (fun e => negb (String.eqb (name_in w (fst e)) "CoordTransformations") && once (map fst (snd e)) && forallb rule_goodb (snd e)) (o_trans o).
Lemma coordsb_spec w i : coordsb w i = true -> coords_back w 2 i (look w i).
Proof.
  unfold coordsb; cbv zeta. intros H. apply andb_prop in H as [H H11]. apply andb_prop in H as [H H10]. apply andb_prop in H as [H H9]. apply andb_prop in H as [H H8].
  apply andb_prop in H as [H H7]. apply andb_prop in H as [H H6]. apply andb_prop in H as [H H5]. apply andb_prop in H as [H H4]. apply andb_prop in H as [H H3]. apply andb_prop in H as [H1 H2].
  split; [apply clsb_spec, H1|]. split; [apply look_spec, H2|]. split; [apply labelb_spec, H3|]. split; [lia|]. split; [apply comps_sameb_spec, H4|].
  split; [apply cfg_eqb_spec, H5|]. split; [apply Nat.eqb_eq, H6|].
  split. { rewrite forallb_forall in H7. apply Forall_forall. intros s Hs. apply symbol_backb, H7, Hs. }
  split; [apply keysb_spec, H8|].
  split. { rewrite forallb_forall in H9. apply Forall_forall. intros [j [[x y] z]] He. specialize (H9 _ He). cbn [snd] in *. apply andb_prop in H9 as [H9 Hz]. apply andb_prop in H9 as [Hx Hy].
    split; [|split]; apply array_backb_spec; assumption. }
  split; [apply keysb_spec, H10|].
  rewrite forallb_forall in H11. apply Forall_forall. intros [j l] He. specialize (H11 _ He). cbn [fst snd] in *. apply andb_prop in H11 as [H11 Hl]. apply andb_prop in H11 as [Hn Ho].
  split; [|split; [apply once_spec, Ho|]].
  - apply negb_true_iff, String.eqb_neq in Hn. exact Hn.
  - rewrite forallb_forall in Hl. apply Forall_forall. intros r Hr. apply rule_backb, Hl, Hr.
Qed.

Definition acceptedb (n : nat) (a : @arr PolyOps) : bool :=
  negb (mdet0 n (data a)) && forallb (fun i => forallb (fun j => kisz (simp (ksub (nth (i * n + j) (data a) k0) (nth (j * n + i) (data a) k0)))) (seq 0 n)) (seq 0 n)
  && match minv n (data a) with Some _ => true | None => false end.
Lemma acceptedb_spec a gi : acceptedb 2 a = true -> gi = mkArr [2; 2] (the [] (minv 2 (data a))) -> accepted_metric 2 a gi.
Proof.
  unfold acceptedb. intros H ->. apply andb_prop in H as [H H3]. apply andb_prop in H as [H1 H2]. split; [apply negb_true_iff, H1|]. split.
  - intros i j Hi Hj. rewrite forallb_forall in H2. assert (Is : In i (seq 0 2)) by (apply in_seq; lia). assert (H4 := H2 i Is). cbv beta in H4. rewrite forallb_forall in H4. apply H4, in_seq. lia.
  - cbn [data shape]. destruct (minv 2 (data a)); [|discriminate]. split; reflexivity.
Qed.

Definition pictureb (w : @world PolyOps) (i : oid) : bool :=
  negb (String.eqb (name_in w i) "Options") &&
  match cls_of w i with
  | Some CCoordinates => coordsb w i && forallb (fun e => negb (fst e =? i) && clsb w (fst e) CCoordinates) (o_trans (look w i))
  | Some CMetric => tensorb w i && (metric_at w i =? i) && systemb w (coords_at w i) 2
      && (cfg_eqb (o_indices (look w i)) [-1; -1]%Z || cfg_eqb (o_indices (look w i)) [1; 1]%Z) && acceptedb 2 (comps_at w i)
  | Some _ => tensorb w i && systemb w (coords_at w i) 2 && clsb w (metric_at w i) CMetric
  | None => false
  end.
Lemma pictureb_spec w i : pictureb w i = true -> name_in w i <> "Options"%string /\ portrays w i (picture w i).
Proof.
  unfold pictureb, picture. intros H. apply andb_prop in H as [H0 H]. split; [apply negb_true_iff, String.eqb_neq in H0; exact H0|].
  destruct (cls_of w i) as [k|] eqn:Ek; [|discriminate].
  assert (T : k <> CCoordinates -> k <> CMetric -> tensorb w i && systemb w (coords_at w i) 2 && clsb w (metric_at w i) CMetric = true ->
    portrays w i (PTensor 2 (coords_at w i) (metric_at w i) k (look w i) (comps_at w i))).
  { intros N1 N2 G. apply andb_prop in G as [G G3]. apply andb_prop in G as [G1 G2]. cbn [portrays]. split; [exact N2|]. split; [apply tensorb_spec; assumption|].
    split; [apply systemb_spec, G2|apply clsb_spec, G3]. }
  destruct k; try (apply T; [discriminate|discriminate|exact H]).
  - apply andb_prop in H as [H1 H2]. split; [apply coordsb_spec, H1|]. rewrite forallb_forall in H2. apply Forall_forall. intros e He. specialize (H2 e He).
    apply andb_prop in H2 as [H2 H3]. split; [|apply clsb_spec, H3]. apply negb_true_iff, Nat.eqb_neq in H2; exact H2.
  - apply andb_prop in H as [H H5]. apply andb_prop in H as [H H4]. apply andb_prop in H as [H H3]. apply andb_prop in H as [H1 H2]. apply Nat.eqb_eq in H2. cbn [portrays].
    split; [rewrite <- H2 at 3; apply tensorb_spec; [exact H1|discriminate|exact Ek]|]. split; [apply systemb_spec, H3|].
    split; [apply orb_prop in H4 as [H4|H4]; apply cfg_eqb_spec in H4; auto|]. apply acceptedb_spec; [exact H5|reflexivity].
Qed.

Definition session_goodb (w : @world PolyOps) : bool :=
  match insts w with [] => false | _ => true end && once (map (name_in w) (insts w)) && forallb (pictureb w) (insts w).
Lemma session_goodb_spec w : reachable w -> session_goodb w = true -> session_back w (picture w).
Proof.
  unfold session_goodb. intros R H. apply andb_prop in H as [H H3]. apply andb_prop in H as [H1 H2]. split; [apply reachable_integrity, R|].
  split; [intros E; rewrite E in H1; discriminate|]. split; [apply once_spec, H2|]. intros i Hi. rewrite forallb_forall in H3. apply pictureb_spec, H3, Hi.
Qed.

(** *** The sessions *)
Lemma ex_full_reachable : reachable ex_full_w.
Proof. apply run_all_reachable; [apply ex_w_reachable|vmtrue]. Qed.
Lemma ex_full_back : session_back ex_full_w (picture ex_full_w).
Proof. apply session_goodb_spec; [apply ex_full_reachable|vmtrue]. Qed.
Lemma ex_dangling_reachable : reachable ex_dangling_w.
Proof. apply run_all_reachable; [apply ex_w_reachable|vmtrue]. Qed.
Lemma ex_line_reachable : reachable ex_line_w.
Proof. apply start_reachable. vmtrue. Qed.
Lemma ex_options_reachable : reachable ex_options_w.
Proof. apply start_reachable. vmtrue. Qed.
Lemma ex_blank_reachable : reachable ex_blank_w.
Proof. apply start_reachable. vmtrue. Qed.
Lemma ex_mixed_reachable : reachable ex_mixed_w.
Proof. apply run_all_reachable; [apply ex_w_reachable|vmtrue]. Qed.
Lemma ex_namesake_reachable : reachable ex_namesake_w.
Proof. apply run_all_reachable; [apply ex_w_reachable|vmtrue]. Qed.
Lemma ex_twins_reachable : reachable ex_twins_w.
Proof. apply run_all_reachable; [apply ex_w_reachable|vmtrue]. Qed.
Lemma ex_unlucky_reachable : reachable ex_unlucky_w.
Proof. apply run_all_reachable; [apply ex_w_reachable|vmtrue]. Qed.
