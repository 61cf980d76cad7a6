(** Two occurrences of every symbol. *)
From Coq Require Import Permutation Bool.
From Verif Require Import Alg Alg_P Arr Arr_P Spec UtilsM Utils_P Arr2_P Act_P RL_P Tensor_P SpecForm Along_P.
Local Open Scope K_scope.

Definition lab : Type := bool * string.
Definition leqb (a b : lab) : bool := Bool.eqb (fst a) (fst b) && String.eqb (snd a) (snd b).
Lemma leqb_spec a b : reflect (a = b) (leqb a b).
Proof.
  destruct a as [a x], b as [b y]. unfold leqb. cbn [fst snd]. destruct (Bool.eqb_spec a b); cbn [andb]; [|constructor; congruence].
  destruct (String.eqb_spec x y); constructor; congruence.
Qed.
Definition join (f1 f2 : string -> nat) : lab -> nat := fun a => if fst a then f2 (snd a) else f1 (snd a).
Definition part (b : bool) (h : lab -> nat) : string -> nat := fun y => h (b, y).
Lemma part_join b f1 f2 y : part b (join f1 f2) y = if b then f2 y else f1 y.
Proof. reflexivity. Qed.

Section Labels.
Context {A : AlgOps} {L : AlgLaws A}.
Add Ring Kring : kring (setoid keq_equiv kring_ext).
Variable n : nat.
Notation mat := (nat -> nat -> K).
Notation pure1 := (pure (X := string)).
Notation pure2 := (pure (X := lab)).
Notation con2 := (con n leqb).
Notation alongs1 := (alongs n String.eqb).
Notation alongs2 := (alongs n leqb).

Lemma ok_join f1 f2 : ok n f1 -> ok n f2 -> ok n (join f1 f2).
Proof. intros H1 H2 [b y]. unfold join. cbn. destruct b; auto. Qed.

Definition twins (Nof : string -> mat) (D : list string) : list (lab * lab * mat) := map (fun y => ((false, y), (true, y), Nof y)) D.
Definition moves (Mof : lab -> mat) (l : list lab) : list (lab * mat) := map (fun a => (a, Mof a)) l.
Definition both (D : list string) : list lab := flat_map (fun y => [(false, y); (true, y)]) D.

Lemma ends_twins Nof D : ends (twins Nof D) = both D.
Proof. unfold ends, twins, both. induction D as [|y D IH]; [reflexivity|]. cbn [map flat_map fst snd]. rewrite IH. reflexivity. Qed.
Lemma fst_moves Mof l : map fst (moves Mof l) = l.
Proof. unfold moves. rewrite map_map. cbn [fst]. apply map_id. Qed.

(** Contractions of the specification *)
Lemma contracted_con (gi : mat) D F f1 f2 : pure2 (fun h => F (part false h) (part true h)) ->
  contracted n gi D F f1 f2 == con2 (twins (fun _ => gi) D) (fun h => F (part false h) (part true h)) (join f1 f2).
Proof.
  intros P. revert f1 f2. induction D as [|y D IH]; intros f1 f2; cbn [contracted twins map con].
  - change (F f1 f2) with ((fun h => F (part false h) (part true h)) (join f1 f2)). reflexivity.
  - apply nsum_ext. intros k _. apply nsum_ext. intros l _. rewrite IH. apply kmul_proper; [reflexivity|].
    apply (con_pure n leqb leqb_spec _ _ P). intros [b x] _. unfold join, upd, leqb. cbn [fst snd].
    destruct b; cbn [Bool.eqb andb]; reflexivity.
Qed.

Lemma assign_cons (y : string) C k ks f x : ~ In y C -> assign (y :: C) (k :: ks) f x = assign C ks (upd String.eqb f y k) x.
Proof.
  intros H. unfold assign. cbn [index_of]. unfold upd. destruct (String.eqb_spec x y) as [->|N].
  - destruct (index_of String.eqb y C) as [j|] eqn:E; [|reflexivity]. exfalso. apply H.
    clear - E. revert j E. induction C as [|z C IH]; intros j E; [discriminate E|]. cbn [index_of] in E. destruct (String.eqb_spec y z) as [->|N]; [left; reflexivity|].
    right. destruct (index_of String.eqb y C); [eapply IH; reflexivity|discriminate E].
  - destruct (index_of String.eqb x C); reflexivity.
Qed.
Lemma pure_pair (F : (string -> nat) -> (string -> nat) -> K) f1 f1' f2 f2' : pure2 (fun h => F (part false h) (part true h)) ->
  (forall x, f1 x = f1' x) -> (forall x, f2 x = f2' x) -> F f1 f2 == F f1' f2'.
Proof.
  intros P H1 H2. apply (P (join f1 f2) (join f1' f2')). intros [b x] _. unfold join. cbn. destruct b; auto.
Qed.
(** A sum over the values of the symbols C *)
Lemma sums_con C (F : (string -> nat) -> (string -> nat) -> K) f1 f2 : NoDup C -> pure2 (fun h => F (part false h) (part true h)) ->
  lsum (tuples n (length C)) (fun ks => F (assign C ks f1) (assign C ks f2)) == con2 (twins (fun _ => kdelta) C) (fun h => F (part false h) (part true h)) (join f1 f2).
Proof.
  intros Nd P. revert f1 f2. induction C as [|y C IH]; intros f1 f2.
  - cbn [length tuples lsum twins map con]. transitivity (F (assign [] [] f1) (assign [] [] f2)); [ring|]. apply pure_pair; [exact P|reflexivity|reflexivity].
  - inversion Nd as [|? ? Ny Nd']; subst. cbn [length]. rewrite lsum_tuples_S. cbn [twins map con]. fold (twins (fun _ => kdelta) C). apply nsum_ext. intros k Hk.
    rewrite nsum_delta_l by exact Hk.
    transitivity (lsum (tuples n (length C)) (fun ks => F (assign C ks (upd String.eqb f1 y k)) (assign C ks (upd String.eqb f2 y k)))).
    { apply lsum_ext. intros ks _. apply pure_pair; [exact P| |]; intros x; apply assign_cons, Ny. }
    rewrite (IH Nd'). apply (con_pure n leqb leqb_spec _ _ P). intros [b x] _. unfold join, upd, leqb. cbn [fst snd]. destruct b; cbn [Bool.eqb andb]; reflexivity.
Qed.
(** Sums over two values for every symbol *)
Fixpoint weights (Nof : string -> mat) (D : list string) (ks ls : list nat) : K :=
  match D, ks, ls with
  | y :: D', k :: ks', l :: ls' => Nof y k l * weights Nof D' ks' ls'
  | _, _, _ => k1
  end.
Lemma double_con (Nof : string -> mat) D (F : (string -> nat) -> (string -> nat) -> K) f1 f2 : NoDup D -> pure2 (fun h => F (part false h) (part true h)) ->
  lsum (tuples n (length D)) (fun ks => lsum (tuples n (length D)) (fun ls => weights Nof D ks ls * F (assign D ks f1) (assign D ls f2))) ==
  con2 (twins Nof D) (fun h => F (part false h) (part true h)) (join f1 f2).
Proof.
  intros Nd P. revert f1 f2. induction D as [|y D IH]; intros f1 f2.
  - cbn [length tuples lsum twins map con weights]. transitivity (F (assign [] [] f1) (assign [] [] f2)); [ring|]. apply pure_pair; [exact P|reflexivity|reflexivity].
  - inversion Nd as [|? ? Ny Nd']; subst. cbn [length]. rewrite lsum_tuples_S. cbn [twins map con]. fold (twins Nof D). apply nsum_ext. intros k Hk.
    transitivity (lsum (tuples n (length D)) (fun ks => nsum n (fun l => lsum (tuples n (length D)) (fun ls => weights Nof (y :: D) (k :: ks) (l :: ls) * F (assign (y :: D) (k :: ks) f1) (assign (y :: D) (l :: ls) f2))))).
    { apply lsum_ext. intros ks _. apply lsum_tuples_S. }
    unfold nsum at 1. rewrite lsum_swap. fold (nsum n). change (lsum (seq 0 n)) with (nsum n). apply nsum_ext. intros l Hl. cbn [weights].
    transitivity (Nof y k l * lsum (tuples n (length D)) (fun ks => lsum (tuples n (length D)) (fun ls => weights Nof D ks ls * F (assign D ks (upd String.eqb f1 y k)) (assign D ls (upd String.eqb f2 y l))))).
    { rewrite <- lsum_scale. apply lsum_ext. intros ks _. rewrite <- lsum_scale. apply lsum_ext. intros ls _.
      rewrite (pure_pair F (assign (y :: D) (k :: ks) f1) (assign D ks (upd String.eqb f1 y k)) (assign (y :: D) (l :: ls) f2) (assign D ls (upd String.eqb f2 y l)) P); [ring| |]; intros x; apply assign_cons, Ny. }
    rewrite (IH Nd'). apply kmul_proper; [reflexivity|]. apply (con_pure n leqb leqb_spec _ _ P). intros [b x] _. unfold join, upd, leqb. cbn [fst snd]. destruct b; cbn [Bool.eqb andb]; reflexivity.
Qed.

(** One occurrence of every symbol *)
Lemma alongs_part b l F h : pure1 F -> alongs1 l F (part b h) == alongs2 (map (fun e => ((b, fst e), snd e)) l) (fun h => F (part b h)) h.
Proof.
  intros P. revert h. induction l as [|[y M] l IH]; intros h; [reflexivity|]. cbn [alongs map fst snd]. unfold along. apply nsum_ext. intros k _.
  apply kmul_proper; [reflexivity|]. rewrite <- IH. apply (alongs_pure n String.eqb l F P). intros x _. unfold part, upd, leqb. cbn [fst snd]. rewrite eqb_reflx. reflexivity.
Qed.
(** Back to one assignment *)
Lemma alongs_join (Mof : lab -> mat) rest G f : NoDup (map snd rest) -> ok n f ->
  dep (fun a => forall r, In r rest -> a <> (negb (fst r), snd r)) G ->
  alongs2 (moves Mof rest) G (join f f) == alongs1 (map (fun r => (snd r, Mof r)) rest) (fun f => G (join f f)) f.
Proof.
  revert G f. induction rest as [|[b y] rest IH]; intros G f Nd Of D; [reflexivity|]. cbn [moves map alongs fst snd] in *. fold (moves Mof rest).
  inversion Nd as [|? ? Ny Nd']; subst. unfold along. apply nsum_ext. intros k Hk.
  replace (join f f (b, y)) with (f y) by (unfold join; cbn; destruct b; reflexivity). apply kmul_proper; [reflexivity|].
  rewrite <- IH; [|exact Nd'|intros x; unfold upd; destruct (String.eqb x y); auto|].
  2:{ eapply dep_weaken; [|exact D]. intros a Ha r Hr. apply Ha. right; exact Hr. }
  apply (alongs_dep n leqb (fun a => a <> (negb b, y))).
  - intros a Ha. rewrite fst_moves in Ha. intros ->. apply Ny. apply in_map_iff. exists (negb b, y). auto.
  - eapply dep_weaken; [|exact D]. intros a Ha. apply (Ha (b, y)). left; reflexivity.
  - intros [b' x] Ha. unfold join, upd, leqb. cbn [fst snd]. destruct (String.eqb_spec x y) as [->|N]; [|rewrite andb_false_r; destruct b'; reflexivity].
    destruct b, b'; cbn [Bool.eqb andb negb] in *; congruence.
Qed.

(** *** The contraction of moved tensors *)
Section General.
Variables (Mof : lab -> mat) (Nof Pof : string -> mat) (labs rest : list lab) (D : list string) (F : (lab -> nat) -> K) (f : string -> nat).
Hypothesis Nl : NoDup labs.
Hypothesis Hp : Permutation labs (both D ++ rest).
Hypothesis HN : forall y p q, In y D -> (p < n)%nat -> (q < n)%nat ->
  nsum n (fun k => nsum n (fun l => Nof y k l * (Mof (false, y) k p * Mof (true, y) l q))) == Pof y p q.
Hypothesis HF : dep (fun a => In a labs) F.
Hypothesis Hr : forall r, In r rest -> ~ In (negb (fst r), snd r) labs.
Hypothesis Of : ok n f.

Lemma both_pairs : flat_map (pair_ends (X := lab)) (map (fun y => mkPair (false, y) (true, y) (Nof y) (Mof (false, y)) (Mof (true, y)) (Pof y)) D) = both D.
Proof. unfold both. clear. induction D as [|y D' IH]; [reflexivity|]. cbn [map flat_map]. rewrite IH. reflexivity. Qed.
Lemma rest_symbols : NoDup (map snd rest).
Proof.
  assert (Nr : NoDup rest). { apply (Permutation_NoDup Hp) in Nl. clear - Nl. induction (both D) as [|a l IH]; [exact Nl|]. inversion Nl; subst. apply IH. assumption. }
  assert (Hi : forall r, In r rest -> In r labs). { intros r H. apply (Permutation_in r (Permutation_sym Hp)). apply in_or_app. auto. }
  clear - Nr Hi Hr. induction rest as [|[b y] l IH]; [constructor|]. inversion Nr as [|? ? Na Nr']; subst. cbn [map snd]. constructor.
  - intros H. apply in_map_iff in H as ([b' y'] & E & H). cbn in E. subst y'. apply (Hr (b, y) (or_introl eq_refl)). cbn [fst snd].
    destruct (Bool.bool_dec b' b) as [->|N]; [contradiction|]. replace (negb b) with b' by (destruct b, b'; cbn; congruence). apply Hi. right; exact H.
  - apply IH; [|exact Nr'|]; intros r H; [apply Hr|apply Hi]; right; exact H.
Qed.
Theorem con_general :
  con2 (twins Nof D) (alongs2 (moves Mof labs) F) (join f f) ==
  alongs1 (map (fun r => (snd r, Mof r)) rest) (fun f => con2 (twins Pof D) F (join f f)) f.
Proof.
  assert (Oj := ok_join f f Of Of). assert (PF : pure2 F) by (eapply dep_pure, HF).
  set (prs := map (fun y => mkPair (false, y) (true, y) (Nof y) (Mof (false, y)) (Mof (true, y)) (Pof y)) D).
  assert (EN : twins Nof D = map (pair_N (X := lab)) prs) by (unfold prs, twins; rewrite map_map; reflexivity).
  assert (EP : twins Pof D = map (pair_P (X := lab)) prs) by (unfold prs, twins; rewrite map_map; reflexivity).
  assert (EM : moves Mof (both D) = flat_map (pair_M (X := lab)) prs).
  { unfold prs, moves, both. clear. induction D as [|y D' IH]; [reflexivity|]. cbn [map flat_map app]. rewrite IH. reflexivity. }
  assert (Nb : NoDup (both D ++ rest)) by exact (Permutation_NoDup Hp Nl).
  transitivity (con2 (twins Nof D) (alongs2 (flat_map (pair_M (X := lab)) prs) (alongs2 (moves Mof rest) F)) (join f f)).
  { apply (con_ext n leqb leqb_spec); [exact Oj|]. intros h Oh _. rewrite <- EM. rewrite <- (alongs_app n leqb). unfold moves. rewrite <- map_app.
    apply (alongs_perm n leqb leqb_spec); [exact Oh|exact PF| |apply Permutation_map, Hp]. fold (moves Mof labs). rewrite fst_moves. exact Nl. }
  rewrite EN. rewrite (con_pairs n leqb leqb_spec).
  - rewrite <- EP. rewrite (con_alongs n leqb leqb_spec); [|exact Oj|exact PF|].
    2:{ intros y Hy. rewrite fst_moves in Hy. rewrite ends_twins. intros Hb. clear - Nb Hy Hb. induction (both D) as [|a l IH]; [destruct Hb|].
        cbn [app] in Nb. inversion Nb as [|? ? N1 N2]; subst. destruct Hb as [->|Hb]; [apply N1, in_or_app; auto|auto]. }
    apply alongs_join; [exact rest_symbols|exact Of|]. apply (con_dep n leqb leqb_spec). rewrite ends_twins. eapply dep_weaken; [|exact HF].
    intros a Ha. apply (Permutation_in a Hp), in_app_iff in Ha. destruct Ha as [Ha|Ha]; [right; exact Ha|left]. intros r Hrr ->. apply (Hr r Hrr).
    apply (Permutation_in _ (Permutation_sym Hp)), in_or_app. right; exact Ha.
  - exact Oj.
  - apply (alongs_pure n leqb), PF.
  - unfold prs. rewrite both_pairs. clear - Nb. induction (both D) as [|a l IH]; [constructor|]. cbn [app] in Nb. inversion Nb as [|? ? N1 N2]; subst.
    constructor; [intros H; apply N1, in_or_app; auto|auto].
  - apply Forall_forall. intros e He. unfold prs in He. apply in_map_iff in He as (y & <- & Hy). intros p q. apply HN, Hy.
Qed.
End General.
End Labels.
