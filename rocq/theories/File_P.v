(** Export and import through files. *)
From Verif Require Import Base LexM ParseM InterpM SpecParse WorldM SpecWorld World_P
  Registry_P ExportM SpecExport Export6_P Export7_P Export8_P Export9_P FileM SpecFile.
From Coq Require Import Ascii.
Import List.
Local Open Scope nat_scope.

Section File.
Context {A : AlgOps} {O : PyOps} {C : CodeOps} {D : Disk}.

(** Texts that differ in their line ends. *)
Inductive same_lines : text -> text -> Prop :=
| sl_nil : same_lines [] []
| sl_cons c l l' : same_lines l l' -> same_lines (c :: l) (c :: l')
| sl_cr l l' : same_lines l l' -> same_lines (cr :: l) (lf :: l')
| sl_crlf l l' : same_lines l l' -> same_lines (cr :: lf :: l) (lf :: l').

Lemma line_ends_lines n : forall t, List.length t <= n -> same_lines t (line_ends t).
Proof.
  induction n as [|n IH]; intros [|c t] H; cbn [List.length] in H; try lia; try constructor. cbn [line_ends].
  destruct (Ascii.eqb_spec c cr) as [->|N]; [|apply sl_cons, IH; lia].
  destruct t as [|d t]; [apply sl_cr, sl_nil|]. cbn [List.length] in H.
  destruct (Ascii.eqb_spec d lf) as [->|N]; [apply sl_crlf, IH; lia|apply sl_cr, IH; cbn; lia].
Qed.

Definition no_ends (p : text) : Prop := ~ In cr p /\ ~ In lf p.
Lemma prefix_lines p : no_ends p -> forall l l', same_lines l l' ->
  prefix_of p l = prefix_of p l' /\ (prefix_of p l = true -> same_lines (skipn (List.length p) l) (skipn (List.length p) l')).
Proof.
  induction p as [|a p IH]; intros N l l' S; [cbn; auto|].
  assert (N' : no_ends p) by (destruct N as [N1 N2]; split; intros X; [apply N1|apply N2]; right; exact X).
  assert (Ac : Ascii.eqb a cr = false) by (apply Ascii.eqb_neq; intros ->; apply (proj1 N); left; reflexivity).
  assert (Al : Ascii.eqb a lf = false) by (apply Ascii.eqb_neq; intros ->; apply (proj2 N); left; reflexivity).
  inversion S as [|c m m' S'|m m' S'|m m' S']; subst; cbn [prefix_of List.length skipn]; try rewrite Ac; try rewrite Al; cbn [andb].
  1, 3, 4: split; [reflexivity|intros E; discriminate E].
  - destruct (IH N' _ _ S') as [E1 E2]. rewrite E1. split; [reflexivity|]. intros E. apply andb_prop in E as [_ E]. rewrite <- E1 in E. apply E2, E.
Qed.
Lemma replace_lines p : no_ends p -> p <> [] -> forall k l l' n m, List.length l <= k -> same_lines l l' -> List.length l <= n -> List.length l' <= m ->
  same_lines (replace_loop n p [] l) (replace_loop m p [] l').
Proof.
  intros N P. induction k as [|k IH]; intros l l' n m Lk S Ln Lm.
  - destruct l; [|cbn in Lk; lia]. inversion S; subst. destruct n, m; constructor.
  - destruct (prefix_lines p N l l' S) as [E1 E2].
    assert (Pl : 1 <= List.length p) by (destruct p; [contradiction|cbn; lia]).
    assert (Sk : forall q : text, List.length (skipn (List.length p) q) <= pred (List.length q)) by (intros q; rewrite skipn_length; lia).
    assert (Sl := Sk l). assert (Sl' := Sk l').
    assert (Cm : forall a q, p = a :: q -> Ascii.eqb a cr = false /\ Ascii.eqb a lf = false).
    { intros a q ->. split; apply Ascii.eqb_neq; intros ->; [apply (proj1 N)|apply (proj2 N)]; left; reflexivity. }
    assert (Fc : forall q, prefix_of p (cr :: q) = false) by (intros q; destruct p as [|a p']; [contradiction|]; cbn [prefix_of]; destruct (Cm a p' eq_refl) as [-> _]; reflexivity).
    assert (Fl : forall q, prefix_of p (lf :: q) = false) by (intros q; destruct p as [|a p']; [contradiction|]; cbn [prefix_of]; destruct (Cm a p' eq_refl) as [_ ->]; reflexivity).
    inversion S as [|c q q' S'|q q' S'|q q' S']; subst; cbn [List.length] in *;
      (destruct n as [|n]; [try lia; destruct m; constructor|]); (destruct m as [|m]; [try lia; constructor|]); cbn [replace_loop].
    + constructor.
    + rewrite <- E1. destruct (prefix_of p (c :: q)); [|apply sl_cons, IH; auto; lia]. cbn [app]. apply IH; [lia|apply E2; reflexivity|lia|lia].
    + rewrite Fc, Fl. apply sl_cr, IH; auto; lia.
    + rewrite Fc, Fl. destruct n as [|n]; [lia|]. cbn [replace_loop]. rewrite Fl. apply sl_crlf, IH; auto; lia.
Qed.
Lemma words_lines l l' : same_lines l l' -> forall w, words_loop w l = words_loop w l'.
Proof.
  induction 1 as [|c l l' S IH|l l' S IH|l l' S IH]; intros w; [reflexivity| | |]; cbn [words_loop].
  - destruct (is_space c); [destruct w|]; rewrite IH; reflexivity.
  - change (is_space cr) with true. change (is_space lf) with true. cbn [words_loop]. destruct w; rewrite IH; reflexivity.
  - change (is_space cr) with true. change (is_space lf) with true. cbn [words_loop]. destruct w; rewrite IH; reflexivity.
Qed.
Lemma normalise_lines t : normalise (line_ends t) = normalise t.
Proof.
  unfold normalise, replace. f_equal. symmetry. apply words_lines.
  apply (replace_lines (chars "\\ReleaseHold")) with (k := List.length t); try apply le_n.
  - split; intros I; vm_compute in I; intuition discriminate.
  - discriminate.
  - apply (line_ends_lines (List.length t)), le_n.
Qed.
Lemma import_lines f t w : import_from_string f (line_ends t) w = import_from_string f t w.
Proof. unfold import_from_string, string_to_tensor, parse_str. rewrite normalise_lines. reflexivity. Qed.
Lemma import_all_lines f t w : import_all_from_string f (line_ends t) w = import_all_from_string f t w.
Proof. unfold import_all_from_string, string_to_tensor, parse_str. rewrite normalise_lines. reflexivity. Qed.

Lemma file_set name t (d : files) : written name t d (dset String.eqb name t d).
Proof.
  split; unfold file_text.
  - induction d as [|[n v] d IH]; cbn; [rewrite String.eqb_refl; reflexivity|].
    destruct (String.eqb name n) eqn:E; cbn; rewrite E; [reflexivity|exact IH].
  - intros name' N. induction d as [|[n v] d IH]; cbn.
    + destruct (String.eqb_spec name' name); [contradiction|reflexivity].
    + destruct (String.eqb_spec name n) as [<-|E]; cbn.
      * destruct (String.eqb_spec name' name); [contradiction|reflexivity].
      * destruct (String.eqb name' n); [reflexivity|exact IH].
Qed.

Theorem export_file w d t name :
  match fst (export_to_string t w) with
  | Err e => export (VStr name) t (w, d) = (FErr e, (w, d))
  | Ok x => if can_write name then exists d', export (VStr name) t (w, d) = (FOk None, (w, d')) /\ written name x d d'
            else export (VStr name) t (w, d) = (FOSError, (w, d))
  end.
Proof.
  assert (N := proj1 (export_changes_nothing w) t). unfold export, fbind, frun, write_file. cbn [fst snd].
  destruct (export_to_string t w) as [[x|e] w']; cbn [fst snd] in *; subst w'; [|reflexivity].
  destruct (can_write name); [|reflexivity]. eexists. split; [reflexivity|]. apply file_set.
Qed.
Theorem export_all_file w d name :
  match fst (export_all_to_string w) with
  | Err e => export_all (VStr name) (w, d) = (FErr e, (w, d))
  | Ok x => if can_write name then exists d', export_all (VStr name) (w, d) = (FOk None, (w, d')) /\ written name x d d'
            else export_all (VStr name) (w, d) = (FOSError, (w, d))
  end.
Proof.
  assert (N := proj2 (export_changes_nothing w)). unfold export_all, fbind, frun, write_file. cbn [fst snd].
  destruct (export_all_to_string w) as [[x|e] w']; cbn [fst snd] in *; subst w'; [|reflexivity].
  destruct (can_write name); [|reflexivity]. eexists. split; [reflexivity|]. apply file_set.
Qed.

Theorem import_file fuel w d name x : file_text d name = Some x ->
  import_from_file fuel (VStr name) (w, d) = with_files (import_from_string fuel x w) d.
Proof.
  intros F. unfold import_from_file, fbind, read_file, frun, with_files. cbn [snd fst]. unfold file_text in F. rewrite F.
  rewrite import_lines. cbn [fst snd]. destruct (import_from_string fuel x w) as [[i|e] w']; reflexivity.
Qed.

Lemma clear_empty w : insts w = [] -> clear_instances w = (Ok tt, w).
Proof.
  intros E. assert (P : forall b, pass b w = (Ok tt, w)) by (intros b; unfold pass; rewrite E; cbn; rewrite E; reflexivity).
  assert (T : forall n b, times n (pass b) w = (Ok tt, w)) by (induction n as [|n IH]; intros b; [reflexivity|]; cbn [times]; unfold mbind; rewrite P; apply IH).
  unfold clear_instances, delete_results, mbind. rewrite !T. destruct w as [h i]. cbn in *. rewrite E. reflexivity.
Qed.
Theorem import_all_file fuel w d name x : registry_ok w -> file_text d name = Some x ->
  import_all_from_file fuel (VStr name) (w, d) = with_files (import_all_from_string fuel x w) d.
Proof.
  intros R F. destruct (clear_instances_spec w R) as (w0 & Cl & I0).
  assert (E : import_all_from_string fuel x w = import_all_from_string fuel x w0).
  { unfold import_all_from_string at 1. unfold mbind at 1. rewrite Cl.
    symmetry. unfold import_all_from_string at 1. unfold mbind at 1. rewrite (clear_empty w0 I0). reflexivity. }
  rewrite E. unfold import_all_from_file, fbind, frun, read_file, with_files. cbn [snd fst]. rewrite Cl. cbn [fst snd]. unfold file_text in F. rewrite F.
  rewrite import_all_lines. cbn [fst snd]. destruct (import_all_from_string fuel x w0) as [[i|e] w']; reflexivity.
Qed.

Theorem unreadable_file fuel w d : registry_ok w ->
  (forall name, file_text d name = None ->
     import_from_file fuel (VStr name) (w, d) = (FOSError, (w, d)) /\
     exists w', import_all_from_file fuel (VStr name) (w, d) = (FOSError, (w', d)) /\ insts w' = []) /\
  (forall v, (forall name, v <> VStr name) ->
     import_from_file fuel v (w, d) = (FErr ETypeError, (w, d)) /\
     exists w', import_all_from_file fuel v (w, d) = (FErr ETypeError, (w', d)) /\ insts w' = []).
Proof.
  intros R. destruct (clear_instances_spec w R) as (w0 & Cl & I0). split.
  - intros name F. unfold file_text in F. unfold import_from_file, import_all_from_file, fbind, read_file, frun. cbn [snd fst]. rewrite Cl. cbn [snd]. rewrite F. split; [reflexivity|].
    exists w0. auto.
  - intros v N. unfold import_from_file, import_all_from_file, fbind, frun. cbn [snd fst]. rewrite Cl.
    destruct v; try (split; [reflexivity|]; exists w0; auto). exfalso. apply (N s eq_refl).
Qed.

Theorem export_argument w d t :
  export VNone t (w, d) = with_files (match export_to_string t w with (Ok x, w') => (Ok (Some x), w') | (Err e, w') => (Err e, w') end) d /\
  export_all VNone (w, d) = with_files (match export_all_to_string w with (Ok x, w') => (Ok (Some x), w') | (Err e, w') => (Err e, w') end) d /\
  forall v, v <> VNone -> (forall name, v <> VStr name) ->
    export v t (w, d) = (FErr ETypeError, (w, d)) /\ export_all v (w, d) = (FErr ETypeError, (w, d)).
Proof.
  unfold export, export_all, fbind, frun, with_files. cbn [fst snd].
  split; [destruct (export_to_string t w) as [[x|e] w']; reflexivity|].
  split; [destruct (export_all_to_string w) as [[x|e] w']; reflexivity|].
  intros v N1 N2. destruct v; try (split; reflexivity); [contradiction|exfalso; apply (N2 s eq_refl)].
Qed.

(** A session through a file. *)
Theorem session_through_file (L : CodeLaws) w P d name : session_back w P -> can_write name = true ->
  exists s d', export_all_to_string w = (Ok s, w) /\ export_all (VStr name) (w, d) = (FOk None, (w, d')) /\ written name s d d' /\
  (forall w2, registry_ok w2 -> exists f w3,
    fends (fun n => import_all_from_file n (VStr name)) (w2, d') (FOk (insts w3), (w3, d')) /\
    insts w3 = map f (import_order w) /\ NoDup (insts w3) /\ forall i, In i (insts w) -> copied w3 f i (P i)).
Proof.
  intros S Cw. destruct (session_round_trip L w P S) as (s & E & H). assert (X := export_all_file w d name). rewrite E in X. cbn [fst] in X. rewrite Cw in X.
  destruct X as (d' & Ed & Wd). exists s, d'. split; [exact E|]. split; [exact Ed|]. split; [exact Wd|]. intros w2 R.
  destruct (H w2 R) as (f & w3 & (n0 & Hn) & Rest). exists f, w3. split; [|exact Rest]. exists n0. intros n Ln.
  rewrite (import_all_file n w2 d' name s R (proj1 Wd)). rewrite (Hn n Ln). reflexivity.
Qed.
End File.
