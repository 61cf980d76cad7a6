(** The runs of the curvature functions in a session with one metric. *)
From Verif Require Import Alg Alg_P Arr Arr_P Spec UtilsM Utils_P Arr2_P Act_P RL_P TensorM WorldM SpecWorld World_P Registry_P CalcM SpecCalc Keep_P Calc_P Calc2_P Calc3_P Calc4_P Trace_P Run_P CurvM SpecCurv Form_P Form2_P.
From Verif Require History_P.
Local Open Scope nat_scope.

Lemma append_inj (a b b' : string) : (a ++ b)%string = (a ++ b')%string -> b = b'.
Proof. induction a as [|x a IH]; cbn; [auto|]. intros H. injection H as H. auto. Qed.
Lemma append_length (a b : string) : String.length (a ++ b) = String.length a + String.length b.
Proof. induction a as [|x a IH]; cbn; [reflexivity|rewrite IH; reflexivity]. Qed.
Lemma suffix_not_temp (a b : string) : 5 <= String.length b -> (a ++ b)%string <> "TEMP"%string.
Proof. intros H E. assert (E' := append_length a b). rewrite E in E'. cbn in E'. lia. Qed.

Section Adds.
Context {A : AlgOps}.
Variables m c : oid.

Definition addsn (names : list string) (w w' : world) : Prop :=
  length (heap w) <= length (heap w') /\
  (forall j o, obj_of w j = Some o -> o_name o <> "TEMP"%string ->
     obj_of w' j = Some o /\ cls_of w' j = cls_of w j /\ (In j (insts w) -> In j (insts w'))) /\
  (forall j, In j (insts w') ->
     (In j (insts w) /\ forall o, obj_of w' j = Some o -> obj_of w j = Some o) \/ exists s, In s ("TEMP"%string :: names) /\ named w' s j) /\
  (forall j o, obj_of w' j = Some o -> j < length (heap w) -> obj_of w j = Some o) /\
  (forall j, used w' j -> used w j \/ j = c \/ j = m).
Lemma addsn_refl w : addsn [] w w.
Proof. split; [lia|]. split; [auto|]. split; [auto|]. auto. Qed.
Lemma addsn_trans l1 l2 w1 w2 w3 : registry_ok w3 -> addsn l1 w1 w2 -> addsn l2 w2 w3 -> addsn (l1 ++ l2) w1 w3.
Proof.
  intros [_ R] (a1 & a2 & a3 & a4 & a5) (b1 & b2 & b3 & b4 & b5). split; [lia|]. split; [|split; [|split]].
  - intros j o Ho Hn. destruct (a2 j o Ho Hn) as (H1 & H2 & H3). destruct (b2 j o H1 Hn) as (H4 & H5 & H6). split; [exact H4|]. split; [congruence|auto].
  - intros j Hj. destruct (b3 j Hj) as [[H1 H2]|(s & Hs & H)].
    + destruct (a3 j H1) as [[H3 H4]|(s & Hs & o & H & H')]; [left; split; [exact H3|auto]|].
      right. exists s. split; [destruct Hs as [Hs|Hs]; [left; exact Hs|right; apply in_app_iff; auto]|].
      specialize (R j Hj). destruct (obj_of w3 j) as [o3|] eqn:E; [|congruence]. exists o3. split; [exact E|]. rewrite (H2 o3 eq_refl) in H. congruence.
    + right. exists s. split; [destruct Hs as [Hs|Hs]; [left; exact Hs|right; apply in_app_iff; auto]|exact H].
  - intros j o Ho Hl. apply a4; [|exact Hl]. apply b4; [exact Ho|lia].
  - intros j Hj. destruct (b5 j Hj) as [H|H]; [apply a5, H|auto].
Qed.
Lemma addsn_mono l l' w w' : incl l l' -> addsn l w w' -> addsn l' w w'.
Proof.
  intros H (a1 & a2 & a3 & a4 & a5). split; [exact a1|]. split; [exact a2|]. split; [|split; [exact a4|exact a5]]. intros j Hj.
  destruct (a3 j Hj) as [H1|(s & [Hs|Hs] & H1)]; [auto|right; exists s; split; [left; exact Hs|exact H1]|right; exists s; split; [right; apply H, Hs|exact H1]].
Qed.
Lemma adds_addsn t nm w w' : adds m c [t] w w' -> named w' nm t -> addsn [nm] w w'.
Proof.
  intros (a1 & a2 & a3 & a4 & a5) H. split; [exact a1|]. split; [exact a2|]. split; [|split; [exact a4|exact a5]]. intros j Hj.
  destruct (a3 j Hj) as [H1|[[<-|[]]|H1]]; [auto|right; exists nm; split; [right; left; reflexivity|exact H]|right; exists "TEMP"%string; split; [left; reflexivity|exact H1]].
Qed.
Lemma addsn_adds l w w' : addsn l w w' -> adds m c (insts w') w w'.
Proof. intros (a1 & a2 & a3 & a4 & a5). split; [exact a1|]. split; [exact a2|]. split; [auto|auto]. Qed.
Lemma addsn_only l w w' : addsn l w w' -> only_adds ("TEMP"%string :: l) w w'.
Proof. intros (a1 & a2 & a3 & a4 & a5). split; [exact a2|exact a3]. Qed.

(** *** Values are kept *)
Lemma value_adds l w w' n t i h : addsn l w w' -> ~ named w "TEMP" t -> tensor_value w n m c t i h -> tensor_value w' n m c t i h.
Proof.
  intros (_ & a2 & _) Nt (k & o & a & Hk & Nk & Ho & H). destruct (a2 t o Ho) as (H1 & H2 & _); [intros E; apply Nt; exists o; auto|].
  exists k, o, a. split; [congruence|]. auto.
Qed.
Lemma known_keep l w w' n nm i h : addsn l w w' -> nm <> "TEMP"%string -> ~ In nm l -> known w n m c nm i h -> known w' n m c nm i h.
Proof.
  intros Ad Nn Nl Kn j Hj (o & Ho & En). assert (Ad' := Ad). destruct Ad' as (_ & a2 & a3 & _).
  destruct (a3 j Hj) as [[H1 H2]|(s & Hs & o' & Ho' & E)].
  - assert (Hw := H2 o Ho). apply (value_adds l w w' n j i h Ad); [intros (o' & E & E'); congruence|]. apply Kn; [exact H1|exists o; auto].
  - rewrite Ho in Ho'. injection Ho' as <-. destruct Hs as [Hs|Hs]; [congruence|]. exfalso. apply Nl. congruence.
Qed.
Lemma known_new t w w' n nm i h : adds m c [t] w w' -> nm <> "TEMP"%string -> named w' nm t -> tensor_value w' n m c t i h -> known w n m c nm i h -> known w' n m c nm i h.
Proof.
  intros Ad Nn Nt Vt Kn j Hj (o & Ho & En). assert (Ad' := Ad). destruct Ad' as (_ & a2 & a3 & _).
  destruct (a3 j Hj) as [[H1 H2]|[[<-|[]]|(o' & Ho' & E)]]; [|exact Vt|congruence].
  assert (Hw := H2 o Ho). apply (value_adds [nm] w w' n j i h (adds_addsn _ _ _ _ Ad Nt)); [intros (o' & E & E'); congruence|].
  apply Kn; [exact H1|exists o; auto].
Qed.

(** The look-up by name. *)
Lemma first_named_spec w nm l : (forall j, In j l -> obj_of w j <> None) ->
  exists r, first_named nm l w = (Ok r, w) /\
    match r with Some j => In j l /\ named w nm j | None => forall j, In j l -> ~ named w nm j end.
Proof.
  intros H. induction l as [|i l IH]; [exists None; split; [reflexivity|intros j []]|]. cbn [first_named].
  destruct (obj_of w i) as [o|] eqn:Eo; [|exfalso; apply (H i (or_introl eq_refl) Eo)].
  rewrite (bind_ok _ _ o w w) by (apply getobj_ok, Eo). destruct (String.eqb_spec (o_name o) nm) as [E|N].
  - exists (Some i). split; [reflexivity|]. split; [left; reflexivity|exists o; auto].
  - destruct IH as (r & E & Hr); [intros j Hj; apply H; right; exact Hj|]. exists r. split; [exact E|]. destruct r as [j|].
    + split; [right|]; apply Hr.
    + intros j [<-|Hj]; [intros (o' & E' & E''); congruence|apply Hr, Hj].
Qed.
End Adds.

Section Kinds.
Context {A : AlgOps} {L : AlgLaws A} {D : DiffLaws A}.
Variables (n : nat) (m c : oid) (name : string) (xs : list string) (g gi : nat -> nat -> K).
Notation session w := (metric_session w n m c name xs g gi).

Definition results : list (string * list Z * (list nat -> K)) :=
  [(" Christoffel", [1; -1; -1]%Z, at3 (Gam n xs g gi)); (" Riemann", [1; -1; -1; -1]%Z, at4 (Rie n xs g gi));
   (" Ricci Tensor", [-1; -1]%Z, at2 (Ric n xs g gi)); (" Ricci Scalar", [], fun _ => Sca n xs g gi);
   (" Einstein", [-1; -1]%Z, at2 (Ein n xs g gi)); (" Weyl Tensor", [-1; -1; -1; -1]%Z, at4 (Wey n xs g gi))]%string.
Definition known_all (w : world) : Prop := forall s i h, In (s, i, h) results -> known w n m c (name ++ s) i h.
Lemma known_all_spec w : known_all w <-> known_results n xs g gi w m c name.
Proof.
  split.
  - intros H. repeat split; apply H; cbn; auto 10.
  - intros (H1 & H2 & H3 & H4 & H5 & H6) s i h H. cbn in H.
    repeat (destruct H as [H|H]; [injection H as <- <- <-; assumption|]). destruct H.
Qed.
Lemma results_unique s i h i' h' : In (s, i, h) results -> In (s, i', h') results -> i = i' /\ h = h'.
Proof.
  intros H H'. cbn in H, H'.
  repeat (destruct H as [H|H]; [injection H as <- <- <-; repeat (destruct H' as [H'|H']; [try discriminate H'; injection H' as <- <-; auto|]); destruct H'|]). destruct H.
Qed.
Lemma results_length s i h : In (s, i, h) results -> 5 <= String.length s.
Proof. intros H. cbn in H. repeat (destruct H as [H|H]; [injection H as <- _ _; cbn; lia|]). destruct H. Qed.

Lemma known_all_step w w' t s i h : known_all w -> In (s, i, h) results -> adds m c [t] w w' -> named w' (name ++ s) t -> tensor_value w' n m c t i h -> known_all w'.
Proof.
  intros Ka Hs Ad Nt Vt s' i' h' Hs'. assert (Nn := suffix_not_temp name s' (results_length _ _ _ Hs')).
  destruct (string_dec s s') as [<-|N].
  - destruct (results_unique _ _ _ _ _ Hs Hs') as [<- <-]. eapply known_new; eauto.
  - eapply known_keep; [apply (adds_addsn m c _ _ _ _ Ad Nt)|exact Nn| |apply Ka, Hs']. intros [E|[]]. apply append_inj in E. contradiction.
Qed.

(** The outcome of a curvature function: [names] are the names of the tensors it may add. *)
Definition done (w : world) (names : list string) (s : string) (p : M oid) (i : list Z) (h : list nat -> K) : Prop :=
  exists t w', p w = (Ok t, w') /\ good w' /\ addsn m c names w w' /\ known_all w' /\ In t (insts w') /\ named w' (name ++ s) t /\ tensor_value w' n m c t i h.

Lemma done_mono w l l' s p i h : incl l l' -> done w l s p i h -> done w l' s p i h.
Proof. intros H (t & w' & E & G & Ad & R). exists t, w'. split; [exact E|]. split; [exact G|]. split; [eapply addsn_mono; eauto|exact R]. Qed.
Lemma done_outcome w p s i h : known_all w -> In (s, i, h) results -> outcome w n m c p (name ++ s) i h -> done w [(name ++ s)%string] s p i h.
Proof.
  intros Ka Hs (t & w' & E & G & Ad & Ht & It & Nt & V). exists t, w'. split; [exact E|]. split; [exact G|]. split; [eapply adds_addsn; eauto|].
  split; [eapply known_all_step; eauto|]. split; [exact It|]. split; [exact Nt|exact V].
Qed.
Lemma session_addsn l w w' : session w -> good w' -> addsn m c l w w' -> session w'.
Proof. intros HS G Ad. eapply session_adds; [exact HS|exact G|eapply addsn_adds, Ad]. Qed.
Lemma done_step w l1 l2 s1 s2 (p : M oid) k i1 h1 i2 h2 : session w -> done w l1 s1 p i1 h1 ->
  (forall t w1, session w1 -> known_all w1 -> addsn m c l1 w w1 -> In t (insts w1) -> named w1 (name ++ s1) t -> tensor_value w1 n m c t i1 h1 -> done w1 l2 s2 (k t) i2 h2) ->
  done w (l1 ++ l2) s2 (mbind p k) i2 h2.
Proof.
  intros HS (t & w1 & E & G & Ad & Ka & It & Nt & V) H. assert (S1 := session_addsn _ _ _ HS G Ad).
  destruct (H t w1 S1 Ka Ad It Nt V) as (t2 & w2 & E2 & G2 & Ad2 & R). exists t2, w2. split; [rewrite (bind_ok _ _ _ _ _ E); exact E2|].
  split; [exact G2|]. split; [eapply addsn_trans; [apply G2|exact Ad|exact Ad2]|exact R].
Qed.
Lemma cached_run w s i h l compute : session w -> known_all w -> In (s, i, h) results -> done w l s (compute (name ++ s)%string) i h ->
  done w l s (cached m s compute) i h.
Proof.
  intros HS Ka Hs H. assert (HS' := HS). destruct HS' as (_ & I & _ & _ & _ & _ & _ & _ & Hm & Im & Nm & _ & _ & om & G & Hom & Enm & _).
  unfold cached, done. rewrite (bind_ok _ _ true w w) by (unfold isinstance; rewrite Hm; reflexivity). cbn [negb].
  rewrite (bind_ok _ _ om w w) by (apply getobj_ok, Hom). rewrite Enm. cbv zeta.
  destruct (first_named_spec w (name ++ s) (insts w)) as (r & E & Hr); [apply I|].
  rewrite (bind_ok _ _ r w w) by exact E. destruct r as [j|]; [|exact H].
  exists j, w. split; [reflexivity|]. split; [exact (session_good w n m c name xs g gi HS)|]. split; [eapply addsn_mono; [|apply addsn_refl]; intros x []|].
  split; [exact Ka|]. split; [apply Hr|]. split; [apply Hr|apply (Ka s i h Hs); apply Hr].
Qed.
Lemma not_temp w s t : 5 <= String.length s -> named w (name ++ s) t -> ~ named w "TEMP" t.
Proof. intros Hl (o & Ho & En) (o' & Ho' & E'). rewrite Ho in Ho'. injection Ho' as <-. apply (suffix_not_temp name s Hl). congruence. Qed.
End Kinds.

(** *** Side conditions on symbols, by computation *)
Definition oppositeb (s1 : list string) (i1 : list Z) (s2 : list string) (i2 : list Z) : bool :=
  (length i2 =? length s2) && forallb (fun xz => forallb (fun yz => negb (String.eqb (fst xz) (fst yz)) || (snd xz =? - snd yz)%Z) (combine s1 i1)) (combine s2 i2).
Lemma oppositeb_spec s1 i1 s2 i2 : oppositeb s1 i1 s2 i2 = true -> opposite s1 i1 s2 i2 i2.
Proof.
  intros H. apply andb_prop in H as [H1 H2]. apply Nat.eqb_eq in H1. split; [exact H1|]. intros j x z Hx Hz. split.
  - intros p z1 Hp Hz1. rewrite forallb_forall in H2. specialize (H2 (x, z)). rewrite forallb_forall in H2.
    specialize (H2 (nth_error_In _ j (proj2 (combine_nth_error _ _ _ _ _) (conj Hx Hz))) (x, z1) (nth_error_In _ p (proj2 (combine_nth_error _ _ _ _ _) (conj Hp Hz1)))).
    cbn [fst snd] in H2. rewrite String.eqb_refl in H2. apply Z.eqb_eq, H2.
  - auto.
Qed.
Definition sameb (s : list string) (i : list Z) (s' : list string) (i' : list Z) : bool :=
  (length i =? length s) && (length i' =? length s') &&
  forallb (fun p => existsb (fun q => String.eqb (fst p) (fst q) && (snd p =? snd q)%Z) (combine s' i')) (combine s i) &&
  forallb (fun p => existsb (fun q => String.eqb (fst p) (fst q) && (snd p =? snd q)%Z) (combine s i)) (combine s' i').
Lemma sameb_spec s i s' i' : sameb s i s' i' = true -> same_indices s i s' i'.
Proof.
  intros H. apply andb_prop in H as [H H4]. apply andb_prop in H as [H H3]. apply andb_prop in H as [H1 H2].
  apply Nat.eqb_eq in H1. apply Nat.eqb_eq in H2. split; [exact H1|]. split; [exact H2|].
  assert (G : forall l l' : list (string * Z), forallb (fun p => existsb (fun q => String.eqb (fst p) (fst q) && (snd p =? snd q)%Z) l') l = true -> forall x z, In (x, z) l -> In (x, z) l').
  { intros l l' H x z Hin. rewrite forallb_forall in H. specialize (H _ Hin). apply existsb_exists in H as ([x' z'] & Hq & H).
    apply andb_prop in H as [Ha Hb]. cbn [fst snd] in *. apply String.eqb_eq in Ha. apply Z.eqb_eq in Hb. subst. exact Hq. }
  intros x z. split; apply G; assumption.
Qed.
Fixpoint distinctb (s : list string) : bool := match s with [] => true | x :: s' => negb (existsb (String.eqb x) s') && distinctb s' end.
Lemma distinctb_spec s : distinctb s = true -> NoDup s.
Proof.
  induction s as [|x s IH]; [constructor|]. cbn [distinctb]. intros H. apply andb_prop in H as [H1 H2]. constructor; [|apply IH, H2].
  intros Hin. apply negb_true_iff in H1. apply not_true_iff_false in H1. apply H1. apply existsb_exists. exists x. split; [exact Hin|apply String.eqb_refl].
Qed.

Lemma index_of_nth s j x : NoDup s -> nth_error s j = Some x -> index_of String.eqb x s = Some j.
Proof.
  intros Nd Hj. destruct (index_of String.eqb x s) as [q|] eqn:E.
  - apply spos_some in E as [E _]. f_equal. eapply NoDup_nth_error; [exact Nd|apply nth_error_Some; congruence|congruence].
  - apply spos_none in E. apply nth_error_In in Hj. contradiction.
Qed.
Lemma assign_map s idx f : NoDup s -> length idx = length s -> map (assign s idx f) s = idx.
Proof.
  intros Nd Hl. apply nth_error_ext_len; [rewrite map_length; congruence|]. intros j x y Hx Hy.
  rewrite nth_error_map in Hx. destruct (nth_error s j) as [z|] eqn:Ej; [|discriminate]. cbn [option_map] in Hx. injection Hx as <-.
  unfold assign. rewrite (index_of_nth s j z Nd Ej). apply nth_error_nth, Hy.
Qed.

Lemma bind_ext {A : AlgOps} {X Y} (p : M X) (k k' : X -> M Y) w : (forall x w', k x w' = k' x w') -> mbind p k w = mbind p k' w.
Proof. intros H. unfold mbind. destruct (p w) as [[x|e] w']; [apply H|reflexivity]. Qed.

Section Runs.
Context {A : AlgOps} {L : AlgLaws A} {D : DiffLaws A}.
Add Ring Kring : kring (setoid keq_equiv kring_ext).
Variables (w0 : world) (n : nat) (m c : oid) (name : string) (xs : list string) (g gi : nat -> nat -> K).
Hypothesis HS : metric_session w0 n m c name xs g gi.
Notation form := (form w0 m c).
Notation tens := (tens n m c).
Notation runs := (runs w0 m c).
Notation value := (tensor_value w0 n m c).

Definition reach {X} (w : world) (p : M X) (R : X -> world -> Prop) : Prop := exists x w', p w = (Ok x, w') /\ R x w'.
Lemma reach_bind {X Y} w (p : M X) (k : X -> M Y) Q R :
  runs w p Q -> (forall x w1, form w1 -> grow w w1 -> Q x w1 -> reach w1 (k x) R) -> reach w (mbind p k) R.
Proof.
  intros (x & w1 & E & F & G & HQ) H. destruct (H x w1 F G HQ) as (y & w2 & E2 & HR). exists y, w2.
  split; [rewrite (bind_ok _ _ _ _ _ E); exact E2|exact HR].
Qed.
Lemma tens_cast w x s i F s' i' F' : tens w x s i F -> s = s' -> i = i' -> (forall f, (forall y, In y s' -> f y < n) -> keq (F f) (F' f)) -> tens w x s' i' F'.
Proof. intros T <- <- H. eapply tens_ext; [exact H|exact T]. Qed.

Definition valid_cfgb (i : list Z) : bool := forallb (fun z => (z =? 1)%Z || (z =? -1)%Z) i.
Lemma valid_cfgb_spec i : valid_cfgb i = true -> valid_cfg i.
Proof. intros H. apply Forall_forall. intros z Hz. unfold valid_cfgb in H. rewrite forallb_forall in H. specialize (H z Hz). apply orb_prop in H as [H|H]; apply Z.eqb_eq in H; auto. Qed.

Lemma r_call w t s i h : form w -> tensor_value w n m c t i h -> distinctb s = true -> (length s =? length i) = true -> valid_cfgb i = true ->
  runs w (calc_call t s) (fun x w' => w' = w /\ tens w x s i (fun f => h (map f s))).
Proof.
  intros F V H1 H2 H3. eapply runs_call; eauto; [apply distinctb_spec, H1|apply Nat.eqb_eq, H2|apply valid_cfgb_spec, H3].
Qed.
Lemma r_add w x y s1 i1 F1 s2 i2 F2 : form w -> tens w x s1 i1 F1 -> tens w y s2 i2 F2 -> is_permutation s1 s2 = true ->
  sameb s1 i1 s2 i2 = true -> runs w (calc_add x (OCalc y)) (fun z w' => tens w' z s1 i1 (fun f => kadd (F1 f) (F2 f))).
Proof. intros F T1 T2 Hp Hi. eapply runs_add; eauto; [apply is_permutation_spec, Hp|apply sameb_spec, Hi]. Qed.
Lemma r_sub w x y s1 i1 F1 s2 i2 F2 : form w -> tens w x s1 i1 F1 -> tens w y s2 i2 F2 -> is_permutation s1 s2 = true ->
  sameb s1 i1 s2 i2 = true -> i2 <> [] -> runs w (calc_sub x (OCalc y)) (fun z w' => tens w' z s1 i1 (fun f => ksub (F1 f) (F2 f))).
Proof. intros F T1 T2 Hp Hi Ni. eapply runs_sub; eauto; [apply is_permutation_spec, Hp|apply sameb_spec, Hi]. Qed.
Lemma r_gradient w a y s i F1 : form w -> tens w y s i F1 -> existsb (String.eqb a) s = false ->
  runs w (matmul0 (mkCalc None [a] RPartial) y) (fun z w' => tens w' z (a :: s) (-1 :: i)%Z (fun f => kdiff (cx xs (f a)) (F1 f))).
Proof.
  intros F T1 Na. eapply runs_gradient; eauto. intros H. apply not_true_iff_false in Na. apply Na, existsb_exists. exists a. split; [exact H|apply String.eqb_refl].
Qed.
(** One shared symbol. *)
Lemma r_mul1 w x y s1 i1 F1 s2 i2 F2 z0 s' i' : form w -> tens w x s1 i1 F1 -> tens w y s2 i2 F2 ->
  (0 <? length i1) && (0 <? length i2) && oppositeb s1 i1 s2 i2 = true ->
  common s1 s2 = [z0] -> without s1 s2 ++ without s2 s1 = s' -> indices_without s1 i1 s2 ++ indices_without s2 i2 s1 = i' ->
  runs w (matmul0 x y) (fun z w' => tens w' z s' i'
    (fun f => nsum n (fun k => kmul (F1 (assign [z0] [k] f)) (F2 (assign [z0] [k] f))))).
Proof.
  intros F T1 T2 H Hc <- <-. apply andb_prop in H as [H H3]. apply andb_prop in H as [H1 H2]. apply Nat.ltb_lt in H1. apply Nat.ltb_lt in H2.
  assert (N1 : i1 <> []) by (intros ->; cbn in H1; lia). assert (N2 : i2 <> []) by (intros ->; cbn in H2; lia).
  destruct (runs_mul w0 n m c name xs g gi HS w x y s1 i1 F1 s2 i2 F2 F T1 T2 N1 N2 (oppositeb_spec _ _ _ _ H3)) as (z & w' & E & Fw & G & T).
  exists z, w'. split; [exact E|]. split; [exact Fw|]. split; [exact G|]. eapply tens_ext; [|exact T]. intros f Hf. rewrite Hc. cbn [length].
  rewrite lsum_tuples_1. reflexivity.
Qed.
(** No shared symbol. *)
Lemma r_mul0 w x y s1 i1 F1 s2 i2 F2 s' i' : form w -> tens w x s1 i1 F1 -> tens w y s2 i2 F2 ->
  (0 <? length i1) && (0 <? length i2) && oppositeb s1 i1 s2 i2 = true ->
  common s1 s2 = [] -> without s1 s2 ++ without s2 s1 = s' -> indices_without s1 i1 s2 ++ indices_without s2 i2 s1 = i' ->
  runs w (matmul0 x y) (fun z w' => tens w' z s' i' (fun f => kmul (F1 f) (F2 f))).
Proof.
  intros F T1 T2 H Hc <- <-. apply andb_prop in H as [H H3]. apply andb_prop in H as [H1 H2]. apply Nat.ltb_lt in H1. apply Nat.ltb_lt in H2.
  assert (N1 : i1 <> []) by (intros ->; cbn in H1; lia). assert (N2 : i2 <> []) by (intros ->; cbn in H2; lia).
  destruct (runs_mul w0 n m c name xs g gi HS w x y s1 i1 F1 s2 i2 F2 F T1 T2 N1 N2 (oppositeb_spec _ _ _ _ H3)) as (z & w' & E & Fw & G & T).
  exists z, w'. split; [exact E|]. split; [exact Fw|]. split; [exact G|]. eapply tens_ext; [|exact T]. intros f Hf. rewrite Hc. cbn [length tuples].
  cbn [lsum]. change (assign [] [] f) with f. ring.
Qed.

(** The end of the functions. *)
Lemma r_end_k k w x s i F req i' nm sy get h : k <> CCoordinates ->
  form w -> tens w x s i F -> (match req with [] => true | _ => is_permutation s req end) = true ->
  let order := match req with [] => s | _ => req end in
  sameb s i order i' = true -> nm <> "TEMP"%string -> (get = None \/ get = Some i') ->
  (forall f, (forall y, In y order -> f y < n) -> keq (F f) (h (map f order))) ->
  reach w (let! r := run_calc x "Result" "" req in let! a := get_components r None get in
      let! o := getobj m in let! t := make_tensor k nm a (Some m) (o_coords o) i' sy in finish_calc r ;; mret t)
    (fun t w' => good w' /\ adds m c [t] w0 w' /\ length (heap w0) <= t /\ In t (insts w') /\ named w' nm t /\ tensor_value w' n m c t i' h).
Proof.
  intros Hk Fw T Hreq order Hi Hnm Hget Hh.
  assert (Hreq' : req = [] \/ Permutation s req) by (destruct req; [auto|right; apply is_permutation_spec, Hreq]).
  assert (Hi' := sameb_spec _ _ _ _ Hi). fold order in Hi'.
  assert (No : NoDup order).
  { destruct T as (Es & t1 & k1 & o1 & a1 & (_ & _ & _ & Ns & _) & _). rewrite Es in Ns. unfold order. destruct Hreq' as [->|H]; [exact Ns|]. destruct req; [exact Ns|].
    eapply Permutation_NoDup; eauto. }
  assert (Lo : length i' = length order) by apply Hi'.
  destruct (end_run w0 n m c name xs g gi HS w x s i F req i' k nm sy get h Fw T Hreq' Hi' Hnm Hk Hget) as (t & w' & E & R).
  - fold order. intros idx [Li Hr]. exists (assign order idx (fun _ => 0)).
    assert (Em : map (assign order idx (fun _ => 0)) order = idx) by (apply assign_map; [exact No|congruence]).
    split; [exact Em|]. assert (Hb : forall y, In y order -> assign order idx (fun _ => 0) y < n).
    { intros y Hy. apply (proj1 (Forall_forall _ _) Hr). apply (eq_ind _ (fun l => In (assign order idx (fun _ => 0) y) l) (in_map _ _ _ Hy) _ Em). }
    split; [exact Hb|]. rewrite (Hh _ Hb), Em. reflexivity.
  - exists t, w'. split; [exact E|exact R].
Qed.
Lemma r_end w x s i F req i' nm sy get h :
  form w -> tens w x s i F -> (match req with [] => true | _ => is_permutation s req end) = true ->
  let order := match req with [] => s | _ => req end in
  sameb s i order i' = true -> nm <> "TEMP"%string -> (get = None \/ get = Some i') ->
  (forall f, (forall y, In y order -> f y < n) -> keq (F f) (h (map f order))) ->
  reach w (let! r := run_calc x "Result" "" req in let! t := publish m r get nm i' sy in finish_calc r ;; mret t)
    (fun t w' => good w' /\ adds m c [t] w0 w' /\ length (heap w0) <= t /\ In t (insts w') /\ named w' nm t /\ tensor_value w' n m c t i' h).
Proof.
  intros Fw T Hreq order Hi Hnm Hget Hh. destruct (r_end_k CTensor w x s i F req i' nm sy get h ltac:(discriminate) Fw T Hreq Hi Hnm Hget Hh) as (t & w' & E & R).
  exists t, w'. split; [|exact R]. rewrite <- E. apply bind_ext. intros r w1. unfold publish. rewrite History_P.bind_assoc. apply bind_ext. intros b w2.
  rewrite History_P.bind_assoc. reflexivity.
Qed.
End Runs.
