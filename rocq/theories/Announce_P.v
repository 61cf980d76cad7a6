(** What exports announce, and entries that an import cannot do without: C219. *)
From Coq Require Import Ascii.
From Verif Require Import Alg Arr Arr_P Spec TensorM WorldM SpecWorld World_P LexM ParseM InterpM SpecParse ExportM SpecExport Options_P Calc_P Export7_P Export8_P SpecAnnounce.
Import List.
Local Open Scope string_scope.
Local Open Scope list_scope.
Local Open Scope nat_scope.

Section Announce.
Context {A : AlgOps} {O : PyOps} {C : CodeOps}.

Lemma bind_inv {X Y} (m : M X) (f : X -> M Y) w y w' : mbind m f w = (Ok y, w') -> exists x v, m w = (Ok x, v) /\ f x v = (Ok y, w').
Proof. unfold mbind. destruct (m w) as [[x|e] v]; [eauto|discriminate]. Qed.

Lemma join_last sep l x : l <> [] -> join sep (l ++ [x]) = join sep l ++ sep ++ x.
Proof.
  induction l as [|y l IH]; [congruence|]. intros _. destruct l as [|z l]; [reflexivity|].
  change (join sep ((y :: z :: l) ++ [x])) with (y ++ sep ++ join sep ((z :: l) ++ [x])). rewrite IH by discriminate.
  change (join sep (y :: z :: l)) with (y ++ sep ++ join sep (z :: l)). rewrite <- !app_assoc. reflexivity.
Qed.

Lemma dict_keys t w d w' : tensor_to_dict t w = (Ok d, w') -> d <> [] /\ dset xkey_eqb (KText "OGReVersion") (XText version_text) d = d ++ [(KText "OGReVersion", XText version_text)].
Proof.
  unfold tensor_to_dict. intros E. apply bind_inv in E as (o & w1 & _ & E). apply bind_inv in E as (k & w2 & _ & E). apply bind_inv in E as (cs & w3 & _ & E).
  apply bind_inv in E as (dc & w4 & _ & E). cbv zeta in E.
  destruct k.
  - apply bind_inv in E as (js & w5 & _ & E). apply bind_inv in E as (ts & w6 & _ & E). unfold mret in E. injection E as <- <-. split; [discriminate|]. destruct (o_jacs o); reflexivity.
  - apply bind_inv in E as (m & w5 & _ & E). apply bind_inv in E as (n & w6 & _ & E). unfold mret in E. injection E as <- <-. split; [discriminate|reflexivity].
  - apply bind_inv in E as (m & w5 & _ & E). apply bind_inv in E as (n & w6 & _ & E). unfold mret in E. injection E as <- <-. split; [discriminate|reflexivity].
  - apply bind_inv in E as (m & w5 & _ & E). apply bind_inv in E as (n & w6 & _ & E). unfold mret in E. injection E as <- <-. split; [discriminate|reflexivity].
  - apply bind_inv in E as (m & w5 & _ & E). apply bind_inv in E as (n & w6 & _ & E). unfold mret in E. injection E as <- <-. split; [discriminate|reflexivity].
  - apply bind_inv in E as (m & w5 & _ & E). apply bind_inv in E as (n & w6 & _ & E). unfold mret in E. injection E as <- <-. split; [discriminate|reflexivity].
Qed.

Theorem export_version t w s w' : export_to_string t w = (Ok s, w') ->
  exists o middle, obj_of w t = Some o /\ s = chars "<|" ++ [dquote] ++ chars (o_name o) ++ [dquote] ++ chars "-><|" ++ middle ++ chars ",""OGReVersion""->""PyOGRe v1.0.0""|>|>".
Proof.
  intros E. assert (W : w' = w) by (pose proof (proj1 (export_changes_nothing w) t) as X; rewrite E in X; exact X). revert E.
  unfold export_to_string. intros E. apply bind_inv in E as (d & w1 & E1 & E). apply bind_inv in E as (n & w2 & E2 & E). unfold mret in E. injection E as <- <-. subst w2.
  unfold name_at, mbind, getobj in E2. destruct (obj_of w1 t) as [o|] eqn:Ho; [|discriminate E2]. unfold mret in E2. injection E2 as <- ->.
  destruct (dict_keys t w d w E1) as [N ->]. exists o. generalize dependent (o_name o). intros n. unfold association. cbn [value_code]. rewrite map_app. cbn [map]. rewrite join_last by (destruct d; [congruence|discriminate]).
  match goal with |- context [join ?s0 (map ?f d)] => set (J := join s0 (map f d)) end. exists J. clearbody J. split; [exact Ho|]. generalize (chars n). intros N0.
  unfold version_text. cbn. rewrite <- !app_assoc. cbn. rewrite <- ?app_assoc. reflexivity.
Qed.
Theorem export_all_version w s w' : export_all_to_string w = (Ok s, w') ->
  exists rest, s = chars "<|""Options""-><|""OGReVersion""->""PyOGRe v1.0.0""|>," ++ rest ++ chars "|>".
Proof.
  unfold export_all_to_string. intros E. apply bind_inv in E as (l & w1 & _ & E). unfold mret in E. injection E as <- <-. exists (join (chars ",") l). reflexivity.
Qed.

(** *** Entries that are missing *)
Lemma entry_none key d : (forall v, ~ In (VS (chars key), v) d) -> entry key d = None.
Proof.
  induction d as [|[k v] d IH]; [reflexivity|]. intros H. cbn [entry]. destruct (key_same k (VS (chars key))) eqn:E.
  - exfalso. destruct k; try discriminate E. cbn [key_same] in E. apply text_eqb_spec in E. subst. apply (H v). left; reflexivity.
  - apply IH. intros u Hu. apply (H u). right; exact Hu.
Qed.
Lemma entry_in key d v : entry key d = Some v -> In (VS (chars key), v) d.
Proof.
  induction d as [|[k u] d IH]; [discriminate|]. cbn [entry]. destruct (key_same k (VS (chars key))) eqn:E.
  - intros H. injection H as ->. destruct k; try discriminate E. cbn [key_same] in E. apply text_eqb_spec in E. subst. left; reflexivity.
  - intros H. right. apply IH, H.
Qed.

Lemma item_ok key v x : item key v = Ok x -> exists d, v = VD d /\ In (VS (chars key), x) d.
Proof. destruct v as [| | |d|]; try discriminate. cbn [item]. destruct (entry key d) eqn:E; [|discriminate]. intros H. injection H as ->. exists d. split; [reflexivity|apply entry_in, E]. Qed.
Lemma lift_inv {X} (r : res X) w x w' : mlift r w = (Ok x, w') -> r = Ok x.
Proof. unfold mlift. intros E. injection E as -> _. reflexivity. Qed.

Lemma role_class t k : class_of_role (VS t) = Ok k -> exists role, t = chars role /\ (k = CCoordinates -> role = "Coordinates") /\ (k = CMetric -> role = "Metric").
Proof.
  unfold class_of_role. destruct (find _ roles) as [p|] eqn:F; [|discriminate]. intros E. injection E as <-. apply find_some in F as [I F]. apply text_eqb_spec in F.
  exists (fst p). split; [symmetry; exact F|]. unfold roles in I. cbn [In] in I.
  repeat (destruct I as [<-|I]; [cbn; split; intros X; first [reflexivity|discriminate X]|]). destruct I.
Qed.

Lemma read_complete name tensor w x w' : read_tensor name tensor w = (Ok x, w') -> complete tensor.
Proof.
  unfold read_tensor. intros E. apply bind_inv in E as (role & w1 & E1 & E). apply lift_inv in E1. apply bind_inv in E as (k & w2 & E2 & E). apply lift_inv in E2.
  apply bind_inv in E as (co & w3 & E3 & E). apply lift_inv in E3. apply bind_inv in E as (ix & w4 & E4 & E). apply lift_inv in E4. apply bind_inv in E as (v & w5 & E5 & E). apply lift_inv in E5.
  apply bind_inv in E as (cs & w6 & _ & E). apply bind_inv in E as (fo & w7 & _ & E). apply bind_inv in E as (cm & w8 & _ & E). apply bind_inv in E as (i & w9 & _ & E).
  apply bind_inv in E as (l & w10 & _ & E). apply bind_inv in E as (m & w11 & E6 & _).
  apply item_ok in E1 as (d & -> & H1). apply item_ok in E3 as (d3 & D3 & H3). apply item_ok in E4 as (d4 & D4 & H4). apply item_ok in E5 as (d5 & D5 & H5).
  injection D3 as <-. injection D4 as <-. injection D5 as <-. destruct role as [|t| | |]; try discriminate E2.
  destruct (role_class t k E2) as (r & -> & R1 & R2). exists d, r. split; [reflexivity|]. split; [exact H1|]. split; [eauto|]. split; [eauto|]. split; [eauto|].
  intros N1 N2. assert (M : exists y, item "Metric" (VD d) = Ok y).
  { destruct k; try (destruct (N1 (R1 eq_refl))); try (destruct (N2 (R2 eq_refl))); cbn [metric_arg] in E6;
      apply bind_inv in E6 as (y & w12 & E6 & _); apply lift_inv in E6; eauto. }
  destruct M as (y & M). apply item_ok in M as (d6 & D6 & M). injection D6 as <-. eauto.
Qed.
Lemma reads_complete l : forall w x w', read_tensors l w = (Ok x, w') -> forall name tensor, In (name, tensor) l -> name <> VS (chars "Options") -> complete tensor.
Proof.
  induction l as [|[n t] l IH]; [intros w x w' _ name tensor []|]. intros w x w' E name tensor. cbn [read_tensors] in E.
  destruct (key_same n (VS (chars "Options"))) eqn:Ek.
  - intros [H|H] N; [|exact (IH _ _ _ E _ _ H N)]. injection H as -> ->. destruct name; try discriminate Ek. cbn [key_same] in Ek. apply text_eqb_spec in Ek. exfalso. apply N. f_equal. exact Ek.
  - apply bind_inv in E as (k & w1 & E1 & E). apply bind_inv in E as (r & w2 & E2 & _). intros [H|H] N; [|exact (IH _ _ _ E2 _ _ H N)]. injection H as -> ->. exact (read_complete _ _ _ _ _ E1).
Qed.
Lemma string_complete n s w x w' : string_to_tensor n s w = (Ok x, w') ->
  exists l, parse_str n s = Ok (VD l) /\ forall name tensor, In (name, tensor) l -> name <> VS (chars "Options") -> complete tensor.
Proof.
  unfold string_to_tensor. intros E. apply bind_inv in E as (v & w1 & E1 & E). apply lift_inv in E1. apply bind_inv in E as (l & w2 & E2 & E). apply lift_inv in E2.
  destruct v; try discriminate E2. injection E2 as ->. exists l. split; [exact E1|]. exact (reads_complete l _ _ _ E).
Qed.
Theorem imports_complete n s w : (exists i w', import_from_string n s w = (Ok i, w')) \/ (exists r w', import_all_from_string n s w = (Ok r, w')) ->
  exists l, parse_str n s = Ok (VD l) /\ forall name tensor, In (name, tensor) l -> name <> VS (chars "Options") -> complete tensor.
Proof.
  intros [(i & w' & E)|(r & w' & E)].
  - unfold import_from_string in E. apply bind_inv in E as (l & w1 & E & _). exact (string_complete _ _ _ _ _ E).
  - unfold import_all_from_string in E. apply bind_inv in E as (u & w0 & _ & E). apply bind_inv in E as (l & w1 & E & _). exact (string_complete _ _ _ _ _ E).
Qed.

Lemma reads_first pre name tensor post w e : Forall (fun p => fst p = VS (chars "Options")) pre -> name <> VS (chars "Options") -> read_tensor name tensor w = (Err e, w) ->
  read_tensors (pre ++ (name, tensor) :: post) w = (Err e, w).
Proof.
  intros P N E. induction pre as [|[n t] pre IH]; cbn [app read_tensors].
  - destruct (key_same name (VS (chars "Options"))) eqn:Ek; [destruct name; try discriminate Ek; cbn [key_same] in Ek; apply text_eqb_spec in Ek; exfalso; apply N; f_equal; exact Ek|].
    unfold mbind at 1. rewrite E. reflexivity.
  - inversion P as [|? ? P1 P2]; subst. cbn [fst] in P1. subst n. assert (X : key_same (VS (chars "Options")) (VS (chars "Options")) = true) by (cbn [key_same]; apply text_eqb_spec; reflexivity).
    rewrite X. apply IH, P2.
Qed.
Lemma import_first n s d w e : first_object n s d -> (forall name, read_tensor name (VD d) w = (Err e, w)) -> import_from_string n s w = (Err e, w).
Proof.
  intros (pre & name & post & P & F & N) E. unfold import_from_string, string_to_tensor. rewrite P. unfold mlift at 1, items. unfold mbind, mlift.
  rewrite (reads_first pre name (VD d) post w e F N (E name)). reflexivity.
Qed.
Lemma role_known role : In role role_names -> exists k, class_of_role (VS (chars role)) = Ok k.
Proof. intros H. unfold role_names in H. cbn [In] in H. repeat (destruct H as [<-|H]; [eexists; vm_compute; reflexivity|]). destruct H. Qed.
Lemma entry_first key d1 v d2 : (forall u, ~ In (VS (chars key), u) d1) -> entry key (d1 ++ (VS (chars key), v) :: d2) = Some v.
Proof.
  induction d1 as [|[k u] d1 IH]; cbn [app entry].
  - intros _. assert (X : key_same (VS (chars key)) (VS (chars key)) = true) by (cbn [key_same]; apply text_eqb_spec; reflexivity). rewrite X. reflexivity.
  - intros H. destruct (key_same k (VS (chars key))) eqn:E; [|apply IH; intros x Hx; apply (H x); right; exact Hx].
    exfalso. destruct k; try discriminate E. cbn [key_same] in E. apply text_eqb_spec in E. subst. apply (H u). left; reflexivity.
Qed.

Theorem role_missing n s d w : first_object n s d -> (forall v, ~ In (VS (chars "Role"), v) d) -> import_from_string n s w = (Err EKeyError, w).
Proof. intros F H. apply (import_first n s d w _ F). intros name. unfold read_tensor, item. rewrite (entry_none _ _ H). reflexivity. Qed.
Theorem role_unknown n s d1 d2 role w : first_object n s (d1 ++ (VS (chars "Role"), VS (chars role)) :: d2) -> (forall v, ~ In (VS (chars "Role"), v) d1) ->
  ~ In role role_names -> import_from_string n s w = (Err EKeyError, w).
Proof.
  intros F H N. apply (import_first n s _ w _ F). intros name. unfold read_tensor, item. rewrite (entry_first _ _ _ _ H). unfold mbind at 1, mlift at 1.
  assert (X : class_of_role (VS (chars role)) = Err EKeyError).
  { unfold class_of_role. destruct (find _ roles) as [p|] eqn:E; [|reflexivity]. exfalso. apply find_some in E as [I E]. apply text_eqb_spec in E.
    apply N. apply (f_equal string_of_list_ascii) in E. rewrite !string_of_list_ascii_of_string in E. subst role. unfold role_names. apply (in_map fst) in I. exact I. }
  rewrite X. reflexivity.
Qed.
Theorem entry_missing n s d1 d2 role key w : let d := (d1 ++ (VS (chars "Role"), VS (chars role)) :: d2)%list in
  first_object n s d -> (forall v, ~ In (VS (chars "Role"), v) d1) -> In role role_names ->
  In key ["DefaultCoords"; "DefaultIndices"; "Components"] -> (forall v, ~ In (VS (chars key), v) d) -> import_from_string n s w = (Err EKeyError, w).
Proof.
  intros d F H I Ik N. apply (import_first n s _ w _ F). intros name. destruct (role_known role I) as (k & Hk). unfold read_tensor. unfold item at 1. unfold d at 1. rewrite (entry_first _ _ _ _ H).
  unfold mbind at 1, mlift at 1. rewrite Hk. unfold mbind at 1, mlift at 1. apply entry_none in N.
  assert (D : forall key', item key' (VD d) = Err EKeyError \/ exists x, item key' (VD d) = Ok x) by (intros key'; cbn [item]; destruct (entry key' d); eauto).
  assert (N' : item key (VD d) = Err EKeyError) by (cbn [item]; rewrite N; reflexivity).
  unfold mbind at 1, mlift at 1. destruct (D "DefaultCoords") as [->|(x1 & E1)]; [reflexivity|rewrite E1].
  unfold mbind at 1, mlift at 1. destruct (D "DefaultIndices") as [->|(x2 & E2)]; [reflexivity|rewrite E2].
  unfold mbind at 1, mlift at 1. destruct (D "Components") as [->|(x3 & E3)]; [reflexivity|].
  exfalso. destruct Ik as [<-|[<-|[<-|[]]]]; congruence.
Qed.
End Announce.
