(** Proofs about export and import: the objects that are made from what is read. *)
From Verif Require Import Base LexM ParseM InterpM SpecParse Value_P Witness_Parse_P WorldM SpecWorld World_P
  Registry_P Run_P Arr Arr_P ExportM SpecExport Export_P Export2_P Export3_P.
From Coq Require Import Ascii.
Import List.

Section Export4.
Context {A : AlgOps} {O : PyOps} {C : CodeOps}.

Lemma value_arg_text s : value_arg (VS (chars s)) = VStr s.
Proof. cbn. unfold chars. now rewrite string_of_list_ascii_of_string. Qed.

Lemma cubic_shape n a : cubic n a -> Forall (fun d => d = n) (shape a).
Proof. intros [_ S]. rewrite S. clear. induction (rank a); cbn; constructor; auto. Qed.

Lemma shape_equal n sh : Forall (fun d => d = n) sh -> forallb (fun d => d =? hd 0 sh) sh = true /\ forallb (fun d => d =? n) sh = true.
Proof.
  intros F. split; apply forallb_forall; intros d I; apply Nat.eqb_eq; rewrite Forall_forall in F; [|apply F, I].
  rewrite (F d I). destruct sh as [|e sh]; [destruct I|]. cbn. symmetry. apply F. left. reflexivity.
Qed.

Lemma valid_object s v sy i n a : as_array v = Some a -> cubic n a -> valid_cfg i -> length i = rank a ->
  validate_object (VStr s) v (VSymbol sy) (VTuple i) = Ok tt.
Proof.
  intros V Cu Vi Li. unfold validate_object. rewrite V. destruct (shape_equal n _ (cubic_shape n a Cu)) as [-> _]. cbn [negb].
  cbn [validate_indices]. rewrite (proj2 (valid_cfg_forallb i) Vi). cbn [negb]. rewrite Li, Nat.eqb_refl. reflexivity.
Qed.

Lemma valid_base s v sy i n a : as_array v = Some a -> cubic n a -> valid_cfg i -> length i = rank a ->
  validate_base (VStr s) v (VSymbol sy) (VTuple i) n = Ok tt.
Proof.
  intros V Cu Vi Li. unfold validate_base. rewrite (valid_object s v sy i n a V Cu Vi Li). cbn [rbind]. rewrite V.
  destruct (shape_equal n _ (cubic_shape n a Cu)) as [_ ->]. reflexivity.
Qed.

Lemma base_ctor_ok k s v sy i n a c met w : as_array v = Some a -> mat_to_array v = v -> cubic n a -> valid_cfg i -> length i = rank a ->
  coordinate_system w c n -> base_ctor k (VStr s) v (VObj c) (VTuple i) (VSymbol sy) met w =
  (Ok (length (heap w)), fresh_world w k (mkObj s sy i (rank a) (Some c) met [(c, [(i, a)])] [] [] [])).
Proof.
  intros V Mv Cu Vi Li (Cc & o & d & x & H1 & H2 & H3 & Hn). unfold base_ctor, mbind at 1, isinstance at 1. rewrite Cc. cbn [cls_eqb negb].
  rewrite Mv. assert (E : coord_components c w = (Ok x, w)) by (apply coord_components_spec; eauto).
  rewrite (bind_to _ _ _ _ _ E). rewrite Hn. unfold mbind at 1, mlift at 1. rewrite (valid_base s v sy i n a V Cu Vi Li). rewrite V. reflexivity.
Qed.

Lemma construct_tensor w k o v sx n a c m : k <> CCoordinates -> k <> CMetric ->
  to_symbol sx = Some (o_symbol o) -> as_array v = Some a -> mat_to_array v = v -> cubic n a -> valid_cfg (o_indices o) ->
  length (o_indices o) = rank a -> cls_of w m = Some CMetric -> coordinate_system w c n ->
  construct k (mkKw (VS (chars (o_name o))) (o_indices o) v (Some (VE sx)) (Some (AObj c)) (Some (AObj m)) []) w
  = (Ok (length (heap w)), fresh_world w k (tensor_copy o c m a)).
Proof.
  intros K1 K2 T V Mv Cu Vi Li Cm Cc. unfold construct. cbn [k_trans k_name k_comps k_indices k_coords k_metric object_arg].
  unfold symbol_arg. cbn [k_symbol]. rewrite value_arg_text. cbn [value_arg]. rewrite T.
  destruct k; try contradiction; unfold new_tensor_as, mbind at 1, isinstance at 1; rewrite Cm; cbn [cls_eqb negb]; now apply (base_ctor_ok _ _ _ _ _ n).
Qed.

Lemma construct_metric w o v sx n a gi c : to_symbol sx = Some (o_symbol o) -> as_array v = Some a -> mat_to_array v = v -> cubic n a ->
  (o_indices o = [-1; -1]%Z \/ o_indices o = [1; 1]%Z) -> rank a = 2 ->
  mdet0 n (data a) = false -> is_symmetric n (data a) = true -> ainv a = Ok gi -> coordinate_system w c n ->
  forall met, construct CMetric (mkKw (VS (chars (o_name o))) (o_indices o) v (Some (VE sx)) (Some (AObj c)) met []) w
  = (Ok (length (heap w)), fresh_world w CMetric (metric_copy o (length (heap w)) c a gi)).
Proof.
  intros T V Mv Cu Hi Ra De Sy Iv Cc met. unfold construct. cbn [k_trans k_name k_comps k_indices k_coords k_metric object_arg].
  unfold symbol_arg. cbn [k_symbol]. rewrite value_arg_text. cbn [value_arg]. rewrite T.
  assert (Vi : valid_cfg (o_indices o)) by (destruct Hi as [-> | ->]; repeat constructor; auto).
  assert (Li : length (o_indices o) = rank a) by (destruct Hi as [-> | ->]; rewrite Ra; reflexivity).
  unfold new_metric. unfold mbind at 1, mlift at 1.
  assert (Vm : validate_metric (VStr (o_name o)) v (VSymbol (o_symbol o)) (VTuple (o_indices o)) = Ok tt).
  { unfold validate_metric. rewrite Mv, V, (valid_object _ v _ _ n a V Cu Vi Li). cbn [rbind].
    pose proof (proj2 Cu) as Sh. rewrite Ra in Sh. cbn in Sh. assert (E : match shape a with [n0; m] => if n0 =? m then Ok n0 else Err ESymPy | [1] => Ok 1 | _ => Err ESymPy end = Ok n).
    { rewrite Sh, Nat.eqb_refl. destruct n as [|[|]]; reflexivity. }
    rewrite E. cbn [rbind]. rewrite De, Sy.
    destruct Hi as [-> | ->]; reflexivity. }
  rewrite Vm. rewrite Mv.
  rewrite (bind_to _ _ _ _ _ (base_ctor_ok CMetric (o_name o) v (o_symbol o) (o_indices o) n a c None w V Mv Cu Vi Li Cc)).
  assert (Hput : forall o1 o2, put (length (heap w)) o2 (fresh_world w CMetric o1) = (Ok tt, fresh_world w CMetric o2)).
  { intros o1 o2. unfold put, fresh_world. cbn [heap insts].
    rewrite nth_error_app2 by lia. rewrite Nat.sub_diag. cbn [nth_error].
    f_equal. f_equal. clear. induction (heap w) as [|y l' IH]; cbn; [reflexivity|]. rewrite IH. reflexivity. }
  unfold mbind at 1, getobj at 1. rewrite obj_of_fresh, Nat.eqb_refl.
  unfold mbind at 1. rewrite Hput. cbn [o_coords set_metric mopt]. unfold mbind at 1, mret at 1. cbn [o_comps set_metric dget]. rewrite Nat.eqb_refl.
  cbn [mopt]. unfold mbind at 1, mret at 1. cbn [o_indices set_metric dget]. rewrite cfg_eqb_refl. cbn [mopt]. unfold mbind at 1, mret at 1.
  unfold mbind at 1. rewrite Hput. unfold mbind at 1, mlift at 1. rewrite Iv. unfold mbind at 1. rewrite Hput. unfold mret.
  unfold metric_copy, set_comps, set_metric. cbn [o_name o_symbol o_indices o_rank o_coords o_metric o_comps o_syms o_trans o_jacs dset]. rewrite Nat.eqb_refl.
  destruct Hi as [-> | ->]; reflexivity.
Qed.

Lemma stored_rules_eq (l : list (string * K)) : stored_rules (map REq l) = l.
Proof. unfold stored_rules. induction l as [|r l IH]; cbn; [reflexivity|]. now rewrite IH. Qed.

Lemma rules_eq_ok (l : list (string * K)) : forallb rule_ok (map REq l) = true.
Proof. induction l; cbn; auto. Qed.

Lemma construct_coords w o sx n tr tr' cs ms : length (o_syms o) = n -> to_symbol sx = Some (o_symbol o) ->
  Forall2 (fun p e => fst p = AObj (fst e) /\ rules_value (snd p) (snd e)) tr tr' ->
  construct CCoordinates (mkKw (VS (chars (o_name o))) [1]%Z (VSyms [n] (o_syms o)) (Some (VE sx)) cs ms tr) w
  = (Ok (length (heap w)), fresh_world w CCoordinates (coords_copy o (length (heap w)) n tr')).
Proof.
  intros Hl T F. unfold construct. cbn [k_trans k_name k_comps k_indices]. unfold symbol_arg. cbn [k_symbol]. rewrite value_arg_text. cbn [value_arg]. rewrite T.
  assert (E : all_some (map (fun p : arg * val => match fst p with AObj i => Some (i, rules_arg (snd p)) | AVal _ => None end) tr)
     = Some (map (fun e => (fst e, map REq (snd e))) tr')).
  { induction F as [|[x v] [j l] tr tr' [E1 E2] F IH]; [reflexivity|]. cbn [map fst snd all_some] in *. subst x. unfold rules_value in E2. now rewrite E2, IH. }
  rewrite E. unfold new_coordinates. unfold mbind at 1, mlift at 1.
  assert (Vc : validate_coordinates (VStr (o_name o)) (VSyms [n] (o_syms o)) (VTuple [1]%Z) (VSymbol (o_symbol o)) (map (fun e => (fst e, map REq (snd e))) tr') = Ok tt).
  { unfold validate_coordinates. rewrite (valid_object (o_name o) (VSyms [n] (o_syms o)) (o_symbol o) [1]%Z n (mkArr [n] (map ksym (o_syms o)))).
    - cbn [rbind]. rewrite cfg_eqb_refl. cbn [negb].
      replace (forallb (fun cr => forallb rule_ok (snd cr)) (map (fun e => (fst e, map REq (snd e))) tr')) with true; [reflexivity|].
      symmetry. clear. induction tr' as [|[j l] tr' IH]; cbn [map forallb snd]; [reflexivity|]. rewrite rules_eq_ok, IH. reflexivity.
    - reflexivity.
    - split; [unfold awf; cbn; rewrite map_length; lia|reflexivity].
    - constructor; [auto|constructor].
    - reflexivity. }
  rewrite Vc. cbn [as_array mopt]. unfold mbind at 1, mret at 1. rewrite alloc_fresh. unfold coords_copy. cbn [name_of sym_of default_indices syms_of rank shape length].
  do 3 f_equal. rewrite map_map. cbn [fst snd]. clear. induction tr' as [|[j l] tr' IH]; cbn [map]; [reflexivity|]. cbn [fst snd]. rewrite stored_rules_eq, IH. reflexivity.
Qed.

(** *** One object *)
Lemma settles_ends {X : Type} (L : CodeLaws) s v (f : val -> M X) w r :
  reads_as true s v -> f v w = r -> ends (fun n => let! v := mlift (parse_str n s) in f v) w r.
Proof.
  intros R E. destruct (ra_read L s v R) as (n & H). exists n. intros m Hm. unfold mbind, mlift. rewrite (H m Hm). exact E.
Qed.

Definition one_text (s : string) (d : list (xkey * xval)) : text :=
  chars "<|" ++ in_quotes s ++ chars "->" ++ association d ++ chars "|>".

Lemma one_reads (L : CodeLaws) s d tv : plain s -> (forall b, reads_as b (association d) tv) ->
  reads_as true (one_text s d) (VD [(VS (chars s), tv)]).
Proof.
  intros P R. pose proof (ra_assoc true [(in_quotes s, association d)] [(VS (chars s), tv)]) as H. cbn [map fst snd sep_by flat_map] in H.
  change (VD [(VS (chars s), tv)]) with (VD (map (fun p : string * val => (VS (chars (fst p)), snd p)) [(s, tv)])). rewrite <- (assoc_texts L); [|repeat constructor; intros []].
  unfold one_text. rewrite app_nil_r in H. rewrite <- !app_assoc in H. apply H. constructor; [|constructor]. cbn [fst snd]. split; [apply ra_text, P|apply R].
Qed.

Lemma version_fresh d : ~ In (KText "OGReVersion") (map fst d) ->
  dset xkey_eqb (KText "OGReVersion"%string) (XText version_text) d = d ++ [(KText "OGReVersion"%string, XText version_text)].
Proof. intros N. now apply dset_fresh. Qed.

Lemma import_one (L : CodeLaws) s d tv k kw w : plain s -> s <> "Options"%string -> (forall b, reads_as b (association d) tv) ->
  read_tensor (VS (chars s)) tv w = (Ok (k, kw), w) ->
  forall r, (let! kw := match k_coords kw with
             | Some (AVal v) =>
                 let! i := first_named v in
                 match i with
                 | Some i => mret (set_k_coords (AObj i) kw)
                 | None => mraise EException
                 end
             | _ => mret kw
             end in construct k kw) w = r -> ends (fun n => import_from_string n (one_text s d)) w r.
Proof.
  intros P No R E r Er. destruct (ra_read L _ _ (one_reads L s d tv P R)) as (n & H). exists n. intros m Hm.
  assert (E1 : string_to_tensor m (one_text s d) w = (Ok [(k, kw)], w)).
  { unfold string_to_tensor. rewrite (bind_to _ _ w (VD [(VS (chars s), tv)]) w) by (unfold mlift; now rewrite (H m Hm)).
    rewrite (bind_to _ _ w [(VS (chars s), tv)] w) by reflexivity. cbn [read_tensors key_same]. rewrite text_eqb_chars.
    destruct (String.eqb_spec s "Options"); [contradiction|]. rewrite (bind_to _ _ _ _ _ E). reflexivity. }
  unfold import_from_string. rewrite (bind_to _ _ _ _ _ E1). rewrite (bind_to _ _ w (k, kw) w) by reflexivity. exact Er.
Qed.

Lemma accepts_run n a gi : cubic n a -> rank a = 2 -> accepted_metric n a gi -> is_symmetric n (data a) = true /\ ainv a = Ok gi.
Proof.
  intros [_ Sh] R (_ & S & I & G). split.
  - unfold is_symmetric. apply forallb_forall. intros i Hi. apply forallb_forall. intros j Hj. apply in_seq in Hi, Hj. apply S; lia.
  - unfold ainv. rewrite R in Sh. cbn in Sh. rewrite Sh, Nat.eqb_refl, I. destruct gi as [sh d]. cbn in *. now rewrite G.
Qed.

Lemma registered_of w : registry_ok w -> registered_live w.
Proof. intros [_ H] i I. apply H, I. Qed.

Lemma export_run t w d o : obj_of w t = Some o -> tensor_to_dict t w = (Ok d, w) -> ~ In (KText "OGReVersion") (map fst d) ->
  export_to_string t w = (Ok (one_text (o_name o) (d ++ [(KText "OGReVersion"%string, XText version_text)])), w).
Proof.
  intros Ho E N. unfold export_to_string. rewrite (bind_to _ _ _ _ _ E).
  rewrite (bind_to _ _ w (name_in w t) w) by (apply name_at_ok; rewrite Ho; discriminate). unfold mret, one_text, name_in. rewrite Ho, version_fresh by exact N. reflexivity.
Qed.

Lemma default_cubic w n o c a : components_back w n o -> default_components o c a -> cubic n a.
Proof.
  intros [_ F] (d & D1 & D2). apply dget_In in D1. rewrite Forall_forall in F. destruct (F _ D1) as (_ & _ & F').
  apply cget_In in D2. rewrite Forall_forall in F'. apply (F' _ D2).
Qed.

Definition no_options (w : world) (t : oid) : Prop := name_in w t <> "Options"%string.

Theorem tensor_round_trip (L : CodeLaws) w n t c m k o a : k <> CMetric -> tensor_back w n t c m k o a -> o_name o <> "Options"%string ->
  exists s, export_to_string t w = (Ok s, w) /\
  forall w2 c2 cs m2 ms, registry_ok w2 -> objects_named w2 (name_in w c) = c2 :: cs -> coordinate_system w2 c2 n ->
    objects_named w2 (name_in w m) = ms ++ [m2] -> cls_of w2 m2 = Some CMetric ->
    ends (fun f => import_from_string f s) w2 (Ok (length (heap w2)), fresh_world w2 k (tensor_copy o c2 m2 a)).
Proof.
  intros Km H No. pose proof H as (Hk & Ck & Ho & (Pn & _) & Hc & Hn & Oc & Lc & Pc & Om & Lm & Pm & Vi & Li & De & _).
  pose proof (default_cubic w n o c a Hc De) as Cu.
  destruct (tensor_read L w n t c m k o a _ _ H (or_intror (conj eq_refl eq_refl))) as (tv & v & sx & R & V1 & V2 & Ts & Rd).
  eexists. split; [apply (export_run t w _ o Ho (dict_tensor w n t c m k o a H)); cbn; intuition discriminate|].
  intros w2 c2 cs m2 ms R2 E1 Cs E2 Cm. apply (import_one L _ _ tv k _ w2 Pn No R (Rd w2 _ (registered_of _ R2))).
  cbn [k_coords]. rewrite (bind_to _ _ w2 (mkKw (VS (chars (o_name o))) (o_indices o) v (Some (VE sx)) (Some (AObj c2)) (metric_found w2 k (name_in w m)) []) w2).
  - replace (metric_found w2 k (name_in w m)) with (Some (AObj m2)).
    + apply (construct_tensor w2 k o v sx n a c2 m2); auto.
    + unfold metric_found. rewrite E2, rev_app_distr. destruct k; try contradiction; reflexivity.
  - rewrite (bind_to _ _ _ _ _ (first_named_run w2 _ (registered_of _ R2))). rewrite E1. reflexivity.
Qed.

Theorem metric_round_trip (L : CodeLaws) w n t c o a gi : tensor_back w n t c t CMetric o a -> o_name o <> "Options"%string ->
  (o_indices o = [-1; -1]%Z \/ o_indices o = [1; 1]%Z) -> accepted_metric n a gi ->
  exists s, export_to_string t w = (Ok s, w) /\
  forall w2 c2 cs, registry_ok w2 -> objects_named w2 (name_in w c) = c2 :: cs -> coordinate_system w2 c2 n ->
    ends (fun f => import_from_string f s) w2 (Ok (length (heap w2)), fresh_world w2 CMetric (metric_copy o (length (heap w2)) c2 a gi)).
Proof.
  intros H No Hi Ac. pose proof H as (Hk & Ck & Ho & (Pn & _) & Hc & Hn & Oc & Lc & Pc & Om & Lm & Pm & Vi & Li & De & _).
  pose proof (default_cubic w n o c a Hc De) as Cu.
  assert (Ra : rank a = 2) by (destruct Hi as [E|E]; rewrite E in Li; cbn in Li; lia).
  destruct (accepts_run n a gi Cu Ra Ac) as [Sy Iv].
  destruct (tensor_read L w n t c t CMetric o a _ _ H (or_intror (conj eq_refl eq_refl))) as (tv & v & sx & R & V1 & V2 & Ts & Rd).
  eexists. split; [apply (export_run t w _ o Ho (dict_tensor w n t c t CMetric o a H)); cbn; intuition discriminate|].
  intros w2 c2 cs R2 E1 Cs. apply (import_one L _ _ tv CMetric _ w2 Pn No R (Rd w2 _ (registered_of _ R2))).
  cbn [k_coords]. rewrite (bind_to _ _ w2 (mkKw (VS (chars (o_name o))) (o_indices o) v (Some (VE sx)) (Some (AObj c2)) None []) w2).
  - apply (construct_metric w2 o v sx n a gi c2); auto. apply Ac.
  - rewrite (bind_to _ _ _ _ _ (first_named_run w2 _ (registered_of _ R2))). rewrite E1. reflexivity.
Qed.

Theorem coords_round_trip (L : CodeLaws) w n t o : coords_back w n t o -> o_name o <> "Options"%string ->
  exists s, export_to_string t w = (Ok s, w) /\
  forall w2, registry_ok w2 -> Forall (fun e => objects_named w2 (name_in w (fst e)) <> []) (o_trans o) ->
    ends (fun f => import_from_string f s) w2
      (Ok (length (heap w2)), fresh_world w2 CCoordinates (coords_copy o (length (heap w2)) n (found_rules w w2 o))).
Proof.
  intros H No. pose proof H as (Ck & Ho & (Pn & _) & Hn & Cs & Hi & Hl & _).
  destruct (coords_read L w n t o _ _ H (or_intror (conj eq_refl eq_refl))) as (tv & sx & tr & R & Ts & Kt & Vt & Rd).
  eexists. split.
  { apply (export_run t w _ o Ho (dict_coords L w n t o H)). rewrite !map_app. cbn. rewrite ?map_app. destruct (o_jacs o); cbn; intuition discriminate. }
  intros w2 R2 F. apply (import_one L _ _ tv CCoordinates _ w2 Pn No R (Rd w2 _ (registered_of _ R2))).
  cbn [k_coords]. unfold mbind at 1, mret at 1. apply construct_coords; auto.
  unfold found_trans, found_rules. clear -F Kt Vt. revert Kt F. induction Vt as [|[s v] [j l] tr tl E Vt IH]; intros Kt F; cbn [flat_map]; [constructor|].
  cbn in Kt. injection Kt as K1 K2. inversion F as [|? ? F1 F2]; subst. cbn [fst snd] in *. apply Forall2_app; [|apply IH; auto].
  destruct (objects_named w2 (name_in w j)) as [|i is]; [contradiction|]. generalize (i :: is). intros is'. clear -E.
  induction is' as [|i is IH]; cbn; constructor; auto.
Qed.

End Export4.
