(** Proofs about export and import: the text of a dictionary and the value read from it. *)
From Verif Require Import Base LexM ParseM InterpM SpecParse Value_P Text_P Doc_P Witness_Parse_P WorldM SpecWorld World_P
  Registry_P Arr Arr_P ExportM SpecExport.
From Coq Require Import Ascii.
Import List.

Section Reads.
Context {A : AlgOps} {O : PyOps} {C : CodeOps}.

Definition reads_as (b : bool) (t : text) (v : val) : Prop :=
  exists d, doc_ok b d /\ names_plain d /\ show_doc true d = t /\ doc_value d = Some v.

Lemma doc_ok_weak d : doc_ok false d -> doc_ok true d.
Proof. induction d; cbn; tauto. Qed.

Lemma ra_weak b t v : reads_as false t v -> reads_as b t v.
Proof. destruct b; [|auto]. intros (d & D & N & S & V). exists d. split; [apply doc_ok_weak, D|auto]. Qed.

Lemma ra_true b t v : reads_as b t v -> reads_as true t v.
Proof. destruct b; [auto|apply ra_weak]. Qed.

Lemma ra_read (L : CodeLaws) t v : reads_as true t v -> settles (fun n => parse_str n t) (Ok v).
Proof. intros (d & D & N & S & V). subst t. apply read_value; [exact same_spec|exact D|exact N|exact V]. Qed.

Lemma join_sep sep l : join sep l = sep_by sep l.
Proof.
  destruct l as [|x l]; [reflexivity|]. revert x. induction l as [|y l IH]; intros x; cbn [join sep_by flat_map]; [now rewrite app_nil_r|].
  cbn [join] in IH. rewrite IH. cbn [sep_by]. now rewrite <- !app_assoc.
Qed.

Lemma ra_list b sp ts vs : Forall2 (reads_as true) ts vs ->
  reads_as b (chars "{" ++ sep_by (comma sp) ts ++ chars "}") (VL vs).
Proof.
  intros F.
  enough (exists ds, fold_right (fun x P => doc_ok true x /\ P) True ds /\ fold_right (fun x P => names_plain x /\ P) True ds
     /\ map (show_doc true) ds = ts /\ every (map doc_value ds) = Some vs) as (ds & D & N & T & V).
  { exists (DList sp ds). cbn [doc_ok names_plain show_doc doc_value]. rewrite T, V. auto. }
  induction F as [|t v ts vs (d & D & N & S & V) F (ds & IH1 & IH2 & IH3 & IH4)].
  - exists []. cbn. auto.
  - exists (d :: ds). cbn. rewrite S, V, IH3, IH4. auto.
Qed.

Definition assoc_val (m : list (val * val)) : val :=
  if forallb may_be_key (map fst m) then VD (dict_of m) else VT (map fst m) (map snd m).

Lemma combine_split' {X Y : Type} (m : list (X * Y)) : combine (map fst m) (map snd m) = m.
Proof. induction m as [|[x y] m IH]; cbn; congruence. Qed.

Lemma ra_assoc b l m : Forall2 (fun t v => reads_as false (fst t) (fst v) /\ reads_as false (snd t) (snd v)) l m ->
  reads_as b (chars "<|" ++ sep_by (chars ",") (map (fun p => fst p ++ chars "->" ++ snd p) l) ++ chars "|>") (assoc_val m).
Proof.
  intros F.
  enough (exists ds, fold_right (fun x P => doc_ok false (fst x) /\ doc_ok false (snd x) /\ P) True ds
     /\ fold_right (fun x P => names_plain (fst x) /\ names_plain (snd x) /\ P) True ds
     /\ map (fun x => (show_doc true (fst x), show_doc true (snd x))) ds = l
     /\ every (map (fun x => doc_value (fst x)) ds) = Some (map fst m)
     /\ every (map (fun x => doc_value (snd x)) ds) = Some (map snd m)) as (ds & D & N & T & K & V).
  { exists (DAssoc false ds). cbn [doc_ok names_plain show_doc doc_value]. rewrite K, V. subst l. rewrite map_map. cbn [fst snd].
    rewrite combine_split'. auto. }
  induction F as [|[t1 t2] [v1 v2] l m [(d1 & D1 & N1 & S1 & V1) (d2 & D2 & N2 & S2 & V2)] F (ds & I1 & I2 & I3 & I4 & I5)].
  - exists []. cbn. auto.
  - exists ((d1, d2) :: ds). cbn in *. rewrite S1, S2, V1, V2, I3, I4, I5. auto 10.
Qed.

Lemma ra_hold b t v : reads_as b t v -> reads_as b (release_hold t) v.
Proof. intros (d & D & N & S & V). exists (DMark d). cbn. rewrite S. auto. Qed.

Lemma ra_text b s : plain s -> reads_as b (in_quotes s) (VS (chars s)).
Proof. intros P. exists (DStr (chars s)). split; [apply P|]. split; [apply P|]. split; reflexivity. Qed.

Lemma ra_code b k x : reads k x -> reads_as b (c_code k) (VE x).
Proof. intros (sp & e & W & S & V). exists (DExp sp e). cbn. rewrite V. auto. Qed.

Lemma ra_rule k1 k2 x1 x2 e : reads k1 x1 -> reads k2 x2 -> o_eq x1 x2 = Ok e ->
  reads_as true (c_code k1 ++ chars "->" ++ c_code k2) (VE e).
Proof.
  intros (s1 & e1 & W1 & S1 & V1) (s2 & e2 & W2 & S2 & V2) Q. exists (DRule false s1 e1 s2 e2).
  cbn [doc_ok names_plain show_doc doc_value]. rewrite V1, V2. cbn. rewrite Q. rewrite S1, S2. auto.
Qed.

Lemma ra_one (L : CodeLaws) z : z = 1%Z \/ z = (-1)%Z -> exists x, to_int x = Some z /\ forall b, reads_as b (int_code z) (VE x).
Proof.
  destruct read_one as (x & y & X & Ix & Y & Iy).
  assert (W : word (chars "1")) by (split; [discriminate|reflexivity]).
  intros [-> | ->].
  - exists x. split; [exact Ix|]. intros b. exists (DExp false (EWord (chars "1"))). cbn [doc_ok words_ok names_plain doc_value meaning].
    rewrite X. split; [exact W|]. split; [exact I|]. split; reflexivity.
  - exists y. split; [exact Iy|]. intros b. exists (DExp false (ENeg (EWord (chars "1")))). cbn [doc_ok words_ok names_plain doc_value meaning].
    rewrite X. cbn [rbind]. rewrite Y. split; [exact W|]. split; [exact I|]. split; reflexivity.
Qed.

Definition good_ints (f : Z -> E) : Prop :=
  forall z, z = 1%Z \/ z = (-1)%Z -> to_int (f z) = Some z /\ forall b, reads_as b (int_code z) (VE (f z)).

Lemma ra_ints (L : CodeLaws) : exists f, good_ints f.
Proof.
  destruct (ra_one L 1) as (x & Ix & Rx); [auto|]. destruct (ra_one L (-1)) as (y & Iy & Ry); [auto|].
  exists (fun z => if (z =? 1)%Z then x else y). intros z [-> | ->]; cbn; auto.
Qed.

Lemma ra_cfg f b l : good_ints f -> valid_cfg l -> Forall2 (reads_as b) (map int_code l) (map (fun z => VE (f z)) l).
Proof. intros G H. induction H as [|z l Hz Hl IH]; cbn; constructor; auto. apply G. tauto. Qed.

(** *** Arrays *)
Fixpoint nest_val (sh : list nat) (xs : list E) : val :=
  match sh with
  | [] => match xs with x :: _ => VE x | [] => VL [] end
  | n :: sh' => VL (map (nest_val sh') (pieces n (prodn sh') xs))
  end.

Lemma pieces_forall2 {X Y : Type} (P : X -> Y -> Prop) (Q : list X -> list Y -> Prop) m n : forall l xs,
  (forall l' xs', length l' = m -> Forall2 P l' xs' -> Q l' xs') ->
  length l = n * m -> Forall2 P l xs -> Forall2 Q (pieces n m l) (pieces n m xs).
Proof.
  induction n as [|n IH]; intros l xs H Hl F; cbn [pieces]; [constructor|]. constructor.
  - apply H; [rewrite firstn_length; lia|]. clear -F. revert m. induction F; intros [|m]; cbn; constructor; auto.
  - apply IH; [exact H|rewrite skipn_length; lia|]. clear -F. revert m. induction F; intros [|m]; cbn; auto.
Qed.

Lemma forall2_map2 {X Y X' Y' : Type} (f : X -> X') (g : Y -> Y') (P : X' -> Y' -> Prop) l m :
  Forall2 (fun x y => P (f x) (g y)) l m -> Forall2 P (map f l) (map g m).
Proof. induction 1; constructor; auto. Qed.

Lemma list_code_sep l : list_code l = chars "{" ++ sep_by (comma true) l ++ chars "}".
Proof. unfold list_code. now rewrite join_sep. Qed.

Lemma ra_nest sh : forall b l xs, length l = prodn sh -> Forall2 reads l xs ->
  reads_as b (nest_code sh l) (nest_val sh xs).
Proof.
  induction sh as [|n sh IH]; intros b l xs Hl F.
  - cbn in Hl. destruct F as [|k x l xs R F]; [discriminate|]. cbn [nest_code nest_val]. apply ra_code, R.
  - cbn [nest_code nest_val prodn] in *. rewrite list_code_sep. apply ra_list. apply forall2_map2.
    apply (pieces_forall2 reads); [|exact Hl|exact F]. intros l' xs' Hl' F'. now apply IH.
Qed.

Lemma flat_pieces {X : Type} m n : forall (xs : list X), length xs = n * m -> concat (pieces n m xs) = xs.
Proof.
  induction n as [|n IH]; intros xs H; cbn [pieces concat]; [destruct xs; [reflexivity|discriminate]|].
  rewrite IH by (rewrite skipn_length; lia). apply firstn_skipn.
Qed.

Lemma pieces_length {X : Type} m n : forall (xs : list X), length (pieces n m xs) = n.
Proof. induction n as [|n IH]; intros xs; cbn [pieces length]; [reflexivity|]. now rewrite IH. Qed.

Lemma pieces_forall {X : Type} m n : forall (xs : list X), length xs = n * m -> Forall (fun p => length p = m) (pieces n m xs).
Proof.
  induction n as [|n IH]; intros xs H; cbn [pieces]; constructor.
  - rewrite firstn_length. lia.
  - apply IH. rewrite skipn_length. lia.
Qed.

Lemma rall_ok_map {X Y : Type} (f : X -> res Y) (g : X -> Y) l : Forall (fun x => f x = Ok (g x)) l -> rall (map f l) = Ok (map g l).
Proof. induction 1 as [|x l H F IH]; cbn; [reflexivity|]. rewrite H. cbn. rewrite IH. reflexivity. Qed.

Lemma scan_nest sh : forall xs, Forall (fun n => 1 <= n) sh -> length xs = prodn sh -> scan (nest_val sh xs) = Ok (sh, xs).
Proof.
  induction sh as [|n sh IH]; intros xs P Hl.
  - cbn in Hl. destruct xs as [|x [|]]; try discriminate. reflexivity.
  - inversion P as [|? ? Hn P']; subst. cbn [nest_val scan prodn] in *. rewrite map_map.
    rewrite (rall_ok_map (fun x => scan (nest_val sh x)) (fun x => (sh, x))).
    2:{ eapply Forall_impl; [|exact (pieces_forall _ _ _ Hl)]. cbn. intros p Hp. apply IH; auto. }
    cbn [rbind]. pose proof (flat_pieces _ _ _ Hl) as Fl. pose proof (pieces_length (prodn sh) n xs) as Len.
    destruct (pieces n (prodn sh) xs) as [|p ps]; [cbn in Len; lia|].
    cbn [map fst].
    assert (B : forallb (fun q : list nat * list E => if list_eq_dec Nat.eq_dec (fst q) sh then true else false) ((sh, p) :: map (fun x => (sh, x)) ps) = true).
    { change ((sh, p) :: map (fun x => (sh, x)) ps) with (map (fun x : list E => (sh, x)) (p :: ps)).
      generalize (p :: ps). intros q. induction q as [|y q IHq]; cbn [map forallb]; [reflexivity|]. rewrite IHq, andb_true_r. cbn [fst]. destruct (list_eq_dec Nat.eq_dec sh sh); [reflexivity|congruence]. }
    rewrite B. f_equal. f_equal.
    + f_equal. cbn [length] in *. rewrite map_length. congruence.
    + rewrite <- Fl. cbn [flat_map concat snd]. f_equal. rewrite flat_map_concat_map, map_map. cbn. now rewrite map_id.
Qed.

Definition arr_val (a : arr) (xs : list E) : val :=
  match shape a with [] => VL [nest_val [] xs] | sh => nest_val sh xs end.

Lemma ra_arr b s1 s2 a xs : awf a -> Forall2 reads (data a) xs -> reads_as b (value_code s1 s2 (XArr a)) (arr_val a xs).
Proof.
  intros W F. cbn [value_code]. apply ra_hold. unfold arr_val, awf in *. destruct (shape a) as [|n sh] eqn:Sh.
  - rewrite list_code_sep. cbn [map]. apply ra_list. constructor; [|constructor]. apply (ra_nest [] true); auto.
  - apply ra_nest; auto.
Qed.

Lemma all_some_map {X : Type} (l : list X) : all_some (map Some l) = Some l.
Proof. induction l as [|x l IH]; cbn; [reflexivity|]. now rewrite IH. Qed.

Lemma all_some_inv {X : Type} (l : list (option X)) r : all_some l = Some r -> l = map Some r.
Proof.
  revert r; induction l as [|[x|] l IH]; cbn; intros r H; try discriminate; [injection H as <-; reflexivity|].
  destruct (all_some l) as [r'|]; [|discriminate]. injection H as <-. cbn. now rewrite (IH r').
Qed.

Lemma array_arg_nest (L : CodeLaws) sh xs l : Forall (fun n => 1 <= n) sh -> length xs = prodn sh ->
  map to_scalar xs = map Some l -> exists v, array_arg (nest_val sh xs) = Ok v /\ as_array v = Some (mkArr sh l) /\ mat_to_array v = v.
Proof.
  intros P Hl T. unfold array_arg. rewrite (scan_nest sh xs P Hl). cbn [rbind fst snd].
  destruct (all_some (map to_symbol xs)) as [ss|] eqn:E.
  - apply all_some_inv in E. exists (VSyms sh ss). split; [reflexivity|]. split; [|reflexivity]. cbn. do 2 f_equal.
    clear -L T E. revert l ss T E. induction xs as [|x xs IH]; intros [|k l] [|s ss]; cbn; try discriminate; [reflexivity|].
    intros T E. injection T as T1 T2. injection E as E1 E2. rewrite (symbol_scalar x s E1) in T1. injection T1 as ->. f_equal. apply IH; auto.
  - rewrite T, all_some_map. exists (VArr (mkArr sh l)). auto.
Qed.

Lemma repr_arr (L : CodeLaws) n a xs : cubic n a -> 2 <= n -> map to_scalar xs = map Some (data a) ->
  exists v, representation (arr_val a xs) = Ok v /\ as_array v = Some a /\ mat_to_array v = v.
Proof.
  intros [W S] Hn T. unfold awf in W.
  assert (Hl : length xs = prodn (shape a)).
  { rewrite <- W. pose proof (f_equal (@length _) T) as H. rewrite !map_length in H. exact H. }
  assert (P : Forall (fun n => 1 <= n) (shape a)).
  { rewrite S. clear -Hn. induction (rank a); cbn; constructor; auto; lia. }
  destruct (array_arg_nest L (shape a) xs (data a) P Hl T) as (v & E & V & Mv).
  exists v. split; [|split; [destruct a; exact V|exact Mv]].
  unfold arr_val. destruct (shape a) as [|m sh] eqn:Sh.
  - cbn in Hl. destruct xs as [|x [|]]; try discriminate. exact E.
  - cbn [nest_val] in *. unfold rank in S. rewrite Sh in S. cbn in S. injection S as -> _.
    pose proof (pieces_length (prodn sh) n xs) as Len. destruct (pieces n (prodn sh) xs) as [|p [|q ps]]; [cbn in Len; lia|cbn in Len; lia|].
    exact E.
Qed.

Lemma array_reads n a : array_back n a -> exists xs, Forall2 reads (data a) xs /\ map to_scalar xs = map Some (data a).
Proof.
  intros [_ F]. induction F as [|k l (x & R & T) F (xs & F' & T')]; [exists []; split; [constructor|reflexivity]|].
  exists (x :: xs). cbn. rewrite T, T'. split; [constructor; auto|reflexivity].
Qed.

(** *** Dictionaries *)
Lemma set_all_fresh (L : CodeLaws) l : forall d, Forall (fun k => hashable k = true) (map fst d ++ map fst l) ->
  NoDup (map fst d ++ map fst l) -> set_all l d = d ++ l.
Proof.
  assert (F : forall k v d, Forall (fun k => hashable k = true) (map fst d) -> ~ In k (map fst d) -> dict_set k v d = d ++ [(k, v)]).
  { intros k v d H N. induction d as [|[k' v'] d IH]; cbn; [reflexivity|]. inversion H as [|? ? H1 H2]; subst.
    destruct (key_same k' k) eqn:E.
    - apply key_same_eq in E; [|exact same_spec|exact H1]. cbn in N. tauto.
    - rewrite IH; [reflexivity|exact H2|cbn in N; tauto]. }
  induction l as [|[k v] l IH]; intros d H N; cbn [set_all fold_left fst snd]; [now rewrite app_nil_r|].
  fold (set_all l (dict_set k v d)). cbn [map fst] in *. pose proof (NoDup_remove_2 _ _ _ N) as Nk.
  rewrite F.
  - rewrite IH; rewrite ?map_app, <- ?app_assoc; auto.
  - apply Forall_app in H. tauto.
  - intros I. apply Nk. rewrite in_app_iff. auto.
Qed.

Lemma dict_of_once (L : CodeLaws) m : Forall (fun k => hashable k = true) (map fst m) -> NoDup (map fst m) -> dict_of m = m.
Proof. intros H N. rewrite <- (set_all_dict same_spec m H). apply (set_all_fresh L m []); auto. Qed.

Lemma chars_inj a b : chars a = chars b -> a = b.
Proof. intros H. rewrite <- (string_of_list_ascii_of_string a), <- (string_of_list_ascii_of_string b). unfold chars in H. now rewrite H. Qed.

Lemma text_eqb_chars a b : text_eqb (chars a) (chars b) = String.eqb a b.
Proof.
  destruct (String.eqb_spec a b) as [->|N]; [apply text_eqb_refl|].
  destruct (text_eqb (chars a) (chars b)) eqn:E; [|reflexivity]. apply text_eqb_spec in E. apply chars_inj in E. contradiction.
Qed.

Lemma entry_text key k v d : entry key ((VS (chars k), v) :: d) = if String.eqb k key then Some v else entry key d.
Proof. cbn [entry key_same]. now rewrite text_eqb_chars. Qed.

(** A dictionary whose keys are texts. *)
Lemma assoc_texts (L : CodeLaws) (m : list (string * val)) : NoDup (map fst m) ->
  assoc_val (map (fun p => (VS (chars (fst p)), snd p)) m) = VD (map (fun p => (VS (chars (fst p)), snd p)) m).
Proof.
  intros N. unfold assoc_val. rewrite map_map. cbn [fst].
  assert (B : forallb may_be_key (map (fun x : string * val => VS (chars (fst x))) m) = true) by (clear; induction m; cbn; auto).
  rewrite B. f_equal. apply (dict_of_once L).
  - rewrite map_map. cbn. clear. induction m; constructor; auto.
  - rewrite map_map. cbn. clear -N. induction m as [|[k v] m IH]; cbn in *; constructor; inversion N; subst; auto.
    intros I. apply H1. apply in_map_iff in I as ((k' & v') & E & I). cbn in E. injection E as E. apply chars_inj in E. subst k'.
    apply in_map_iff. exists (k, v'). auto.
Qed.

Lemma ra_dict b s d m : Forall2 (fun p v => reads_as false (key_code (fst p)) (fst v) /\
    reads_as false (if xkey_eqb (fst p) (KText "CoordTransformations") then value_code true false (snd p)
                    else value_code s true (snd p)) (snd v)) d m ->
  reads_as b (value_code true s (XDict d)) (assoc_val m).
Proof.
  intros F. cbn [value_code]. rewrite join_sep.
  set (g := fun p : xkey * xval => if xkey_eqb (fst p) (KText "CoordTransformations") then value_code true false (snd p) else value_code s true (snd p)).
  change (map _ d) with (map (fun p => key_code (fst p) ++ chars "->" ++ g p) d).
  replace (map (fun p => key_code (fst p) ++ chars "->" ++ g p) d) with (map (fun p : text * text => fst p ++ chars "->" ++ snd p) (map (fun p => (key_code (fst p), g p)) d)) by (rewrite map_map; reflexivity).
  apply ra_assoc. clear -F. induction F; cbn [map]; constructor; auto.
Qed.

(** The rules of a transformation are written as a list. *)
Lemma ra_rules b (l : list (string * K)) es :
  Forall2 (fun r e => exists x y, reads (ksym (fst r)) x /\ reads (snd r) y /\ o_eq x y = Ok e) l es ->
  reads_as b (value_code false true (XDict (map (fun r => (KSymbol (fst r), XExpr (snd r))) l))) (VL (map VE es)).
Proof.
  intros F. cbn [value_code]. rewrite join_sep. apply (ra_list b false). rewrite map_map. cbn [fst snd xkey_eqb key_code value_code].
  induction F as [|[x k] e l es (a & b' & R1 & R2 & Q) F IH]; cbn [map]; constructor; [|exact IH].
  cbn [fst snd] in *. unfold release_hold. rewrite !app_assoc. rewrite <- (app_assoc _ (chars "->")). apply ra_hold.
  apply (ra_rule _ _ a b'); auto.
Qed.

(** *** The components *)
Definition cfg_key (f : Z -> E) (k : list Z * string) : val := VL [VL (map (fun z => VE (f z)) (fst k)); VS (chars (snd k))].

Lemma ra_components (L : CodeLaws) f b (cl : list ((list Z * string) * xval)) vs : good_ints f -> cl <> [] ->
  Forall2 (fun e v => valid_cfg (fst (fst e)) /\ plain (snd (fst e)) /\ reads_as false (value_code true true (snd e)) v) cl vs ->
  reads_as b (value_code true true (XDict (map (fun e => (KConfig (fst (fst e)) (snd (fst e)), snd e)) cl)))
    (VT (map (fun e => cfg_key f (fst e)) cl) vs).
Proof.
  intros G N F.
  assert (E : VT (map (fun e => cfg_key f (fst e)) cl) vs = assoc_val (combine (map (fun e => cfg_key f (fst e)) cl) vs)).
  { unfold assoc_val. assert (Hl : length vs = length cl) by (clear -F; induction F; cbn; auto).
    assert (M1 : map fst (combine (map (fun e => cfg_key f (fst e)) cl) vs) = map (fun e => cfg_key f (fst e)) cl).
    { clear -F. induction F; cbn; congruence. }
    assert (M2 : map snd (combine (map (fun e => cfg_key f (fst e)) cl) vs) = vs).
    { clear -F. induction F; cbn; congruence. }
    rewrite M1, M2. destruct cl; [contradiction|]. reflexivity. }
  rewrite E. apply ra_dict. clear E N. induction F as [|[[i s] a] v cl vs (V & P & R) F IH]; cbn [map combine]; constructor; [|exact IH].
  cbn [fst snd xkey_eqb key_code] in *. split; [|exact R].
  rewrite join_sep. unfold cfg_key. cbn [fst snd].
  replace (chars "{{" ++ sep_by (chars ",") (map int_code i) ++ chars "}," ++ in_quotes s ++ chars "}")
    with (chars "{" ++ sep_by (comma false) [chars "{" ++ sep_by (comma false) (map int_code i) ++ chars "}"; in_quotes s] ++ chars "}")
    by (cbn [sep_by flat_map comma]; rewrite <- ?app_assoc; reflexivity).
  apply ra_list. constructor; [|constructor; [apply ra_text, P|constructor]].
  apply ra_list, ra_cfg; auto.
Qed.

Lemma val_eqb_refl (L : CodeLaws) (xs : list E) : val_eqb (VL (map VE xs)) (VL (map VE xs)) = true.
Proof. cbn. induction xs as [|x xs IH]; cbn; [reflexivity|]. rewrite IH, (proj2 (same_spec x x) eq_refl). reflexivity. Qed.

Lemma cfg_val_eqb (L : CodeLaws) f i j : good_ints f -> valid_cfg i -> valid_cfg j ->
  val_eqb (VL (map (fun z => VE (f z)) i)) (VL (map (fun z => VE (f z)) j)) = cfg_eqb i j.
Proof.
  intros G Hi. revert j. induction Hi as [|z i Hz Hi IH]; intros [|y j] Hj; try reflexivity.
  inversion Hj as [|? ? Hy Hj']; subst. specialize (IH j Hj'). cbn in *. rewrite IH.
  f_equal. destruct (Z.eqb_spec z y) as [->|N]; [apply same_spec; reflexivity|].
  destruct (o_same (f z) (f y)) eqn:E; [|reflexivity]. apply same_spec in E. exfalso. apply N.
  destruct (G z) as [Gz _]; [tauto|]. destruct (G y) as [Gy _]; [tauto|]. congruence.
Qed.

Definition is_target (i : list Z) (s : string) (k : list Z * string) : bool := cfg_eqb (fst k) i && String.eqb (snd k) s.

Lemma find_comps (L : CodeLaws) f i s v (ks : list (list Z * string)) vs : good_ints f -> valid_cfg i ->
  Forall2 (fun k x => valid_cfg (fst k) /\ (is_target i s k = true -> representation x = Ok v)) ks vs ->
  forall found, find_components (VL (map (fun z => VE (f z)) i)) (VS (chars s)) (combine (map (cfg_key f) ks) vs) found
  = Ok (if existsb (is_target i s) ks then Some v else found).
Proof.
  intros G Vi F. induction F as [|[j t] x ks vs [Vj R] F IH]; intros found; [reflexivity|].
  cbn [map combine find_components cfg_key fst snd at_index nth_error rbind] in *.
  rewrite cfg_val_eqb by auto. cbn [existsb]. unfold is_target in R at 1. cbn [fst snd] in R.
  unfold is_target at 1. cbn [fst snd].
  destruct (cfg_eqb j i); cbn [negb andb orb]; [|apply IH].
  cbn [val_eqb]. rewrite text_eqb_chars. destruct (String.eqb t s); cbn [negb orb]; [|apply IH].
  rewrite R by reflexivity. cbn [rbind]. rewrite IH. destruct (existsb (is_target i s) ks); reflexivity.
Qed.

End Reads.
