(** The rules of Defaults.py at real points. *)
From Coq Require Import Reals Lra Psatz.
From Verif Require Import Alg Spec WorldM WrapM DefaultsM InstReal SpecReal.
Local Open Scope R_scope.

Definition to_s : list (string * @K RealOps) := @stored_rules RealOps (to_spherical real_functions).
Definition to_c : list (string * @K RealOps) := @stored_rules RealOps (to_cartesian real_functions).

Lemma polar_length x y z : 0 < x * x + y * y ->
  let r := sqrt ((x * x + y * y) + z * z) in 0 < r /\ r * sin (acos (z * / r)) = sqrt (x * x + y * y) /\ r * cos (acos (z * / r)) = z.
Proof.
  intros H r. assert (Hz := Rle_0_sqr z). unfold Rsqr in Hz. assert (Hr : 0 < r) by (apply sqrt_lt_R0; lra). assert (Hrr : r * r = x * x + y * y + z * z) by (apply sqrt_sqrt; lra).
  assert (B : -1 <= z * / r <= 1).
  { assert (B2 : (z * / r) * (z * / r) <= 1). { replace ((z * / r) * (z * / r)) with (z * z / (r * r)) by (field; lra). rewrite Hrr. apply Rmult_le_reg_r with (x * x + y * y + z * z); [lra|]. field_simplify; [|lra]. nra. }
    split; nra. }
  split; [exact Hr|]. rewrite sin_acos, cos_acos by exact B. split; [|field; lra].
  apply Rsqr_inj; [apply Rmult_le_pos; [lra|apply sqrt_pos]|apply sqrt_pos|]. rewrite Rsqr_mult, !Rsqr_sqrt by (try lra; unfold Rsqr; nra).
  unfold Rsqr. replace (r * r * (1 - z * / r * (z * / r))) with (r * r - z * z) by (field; lra). lra.
Qed.
Lemma polar_angle x y : 0 < x -> let s := sqrt (x * x + y * y) in s * cos (atan (y * / x)) = x /\ s * sin (atan (y * / x)) = y.
Proof.
  intros H s. assert (Hy := Rle_0_sqr y). unfold Rsqr in Hy. assert (P : 0 < x * x) by nra.
  assert (E : sqrt (1 + Rsqr (y * / x)) = s / x).
  { apply Rsqr_inj; [apply sqrt_pos|apply Rmult_le_pos; [apply sqrt_pos|left; apply Rinv_0_lt_compat, H]|]. rewrite Rsqr_sqrt by (assert (Q := Rle_0_sqr (y * / x)); lra).
    rewrite Rsqr_div'. unfold s. rewrite Rsqr_sqrt by lra. unfold Rsqr. field. lra. }
  assert (S : 0 < s) by (apply sqrt_lt_R0; lra).
  rewrite cos_atan, sin_atan, E. split; field; lra.
Qed.
Lemma polar_angle_neg x y : x < 0 -> let s := sqrt (x * x + y * y) in s * cos (atan (y * / x)) = - x /\ s * sin (atan (y * / x)) = - y.
Proof.
  intros H. destruct (polar_angle (- x) (- y) ltac:(lra)) as [E1 E2]. replace (- y * / - x) with (y * / x) in E1, E2 by (field; lra).
  replace (- x * - x + - y * - y) with (x * x + y * y) in E1, E2 by ring. split; assumption.
Qed.

Section There.
Variable p : point.
Let x := p "x"%string. Let y := p "y"%string. Let z := p "z"%string.
Let r := sqrt ((x * x + y * y) + z * z).
Lemma back_point e : only_of cartesian_symbols e -> forall q : point,
  q "t"%string = p "t"%string ->
  q "x"%string = r * sin (acos (z * / r)) * cos (atan (y * / x)) -> q "y"%string = r * sin (acos (z * / r)) * sin (atan (y * / x)) ->
  q "z"%string = r * cos (acos (z * / r)) -> there_and_back to_s to_c e p = e q.
Proof.
  intros He q Ht Hx Hy Hz. apply He. intros v Hv. destruct Hv as [<-|[<-|[<-|[<-|[]]]]]; [rewrite Ht|rewrite Hx|rewrite Hy|rewrite Hz]; reflexivity.
Qed.
Theorem cartesian_same e : only_of cartesian_symbols e -> 0 < x -> there_and_back to_s to_c e p = e p.
Proof.
  intros He H. destruct (polar_length x y z) as (Hr & E1 & E2); [assert (Hy := Rle_0_sqr y); unfold Rsqr in Hy; nra|]. destruct (polar_angle x y H) as [E3 E4]. fold r in E1, E2.
  apply back_point; [exact He|reflexivity|..]; rewrite ?E1, ?E2, ?E3, ?E4; reflexivity.
Qed.
Theorem cartesian_reflected e : only_of cartesian_symbols e -> x < 0 ->
  there_and_back to_s to_c e p = e (at_value (at_value p "x" (- x)) "y" (- y)).
Proof.
  intros He H. destruct (polar_length x y z) as (Hr & E1 & E2); [assert (Hy := Rle_0_sqr y); unfold Rsqr in Hy; nra|]. destruct (polar_angle_neg x y H) as [E3 E4]. fold r in E1, E2.
  apply back_point; [exact He|reflexivity|..]; rewrite ?E1, ?E2, ?E3, ?E4; reflexivity.
Qed.
End There.

Section Back.
Variable p : point.
Let r := p "r"%string. Let th := p "theta"%string. Let ph := p "phi"%string.
Let x := r * sin th * cos ph. Let y := r * sin th * sin ph. Let z := r * cos th.
Lemma there_point e : only_of spherical_symbols e -> forall q : point,
  q "t"%string = p "t"%string ->
  q "r"%string = sqrt ((x * x + y * y) + z * z) -> q "theta"%string = acos (z * / sqrt ((x * x + y * y) + z * z)) -> q "phi"%string = atan (y * / x) ->
  there_and_back to_c to_s e p = e q.
Proof.
  intros He q Ht Hr Hth Hph. apply He. intros v Hv. destruct Hv as [<-|[<-|[<-|[<-|[]]]]]; [rewrite Ht|rewrite Hr|rewrite Hth|rewrite Hph]; reflexivity.
Qed.
Lemma spherical_point e a : only_of spherical_symbols e -> 0 < r -> 0 < th < PI -> cos ph <> 0 -> - (PI / 2) < a < PI / 2 -> tan ph = tan a ->
  there_and_back to_c to_s e p = e (at_value p "phi" a).
Proof.
  intros He Hr Ht Hc Ha Et. assert (Hs : 0 < sin th) by (apply sin_gt_0; lra).
  assert (ER : sqrt ((x * x + y * y) + z * z) = r).
  { replace (x * x + y * y + z * z) with (r * r); [apply sqrt_square; lra|]. unfold x, y, z.
    assert (S1 := sin2_cos2 th). assert (S2 := sin2_cos2 ph). unfold Rsqr in *.
    transitivity (r * r * (sin th * sin th * (sin ph * sin ph + cos ph * cos ph) + cos th * cos th)); [rewrite S2, Rmult_1_r, S1; ring|ring]. }
  apply there_point; [exact He|reflexivity|..]; cbn; rewrite ?ER.
  - reflexivity.
  - unfold z. replace (r * cos th * / r) with (cos th) by (field; lra). symmetry. apply acos_cos. fold th. lra.
  - unfold x, y. replace (r * sin th * sin ph * / (r * sin th * cos ph)) with (tan ph) by (unfold tan; field; repeat split; first [exact Hc|lra]). rewrite Et. symmetry. apply atan_tan, Ha.
Qed.
Theorem spherical_same e : only_of spherical_symbols e -> 0 < r -> 0 < th < PI -> - (PI / 2) < ph < PI / 2 -> there_and_back to_c to_s e p = e p.
Proof.
  intros He Hr Ht Hp. assert (C : 0 < cos ph) by (apply cos_gt_0; lra).
  rewrite (spherical_point e ph He Hr Ht ltac:(lra) Hp eq_refl). apply He. intros v Hv. destruct Hv as [<-|[<-|[<-|[<-|[]]]]]; reflexivity.
Qed.
Theorem spherical_moved e : only_of spherical_symbols e -> 0 < r -> 0 < th < PI -> PI / 2 < ph < 3 * (PI / 2) ->
  there_and_back to_c to_s e p = e (at_value p "phi" (ph - PI)).
Proof.
  intros He Hr Ht Hp. assert (C : cos ph < 0) by (apply cos_lt_0; lra).
  apply spherical_point; [exact He|exact Hr|exact Ht|lra|lra|]. unfold tan.
  assert (E1 : sin (ph - PI) = - sin ph) by (rewrite sin_minus, sin_PI, cos_PI; ring). assert (E2 : cos (ph - PI) = - cos ph) by (rewrite cos_minus, sin_PI, cos_PI; ring).
  rewrite E1, E2. field. lra.
Qed.
End Back.

Theorem there_and_back_not_same : exists (p : point) e, only_of cartesian_symbols e /\ p "x"%string <> 0 /\ there_and_back to_s to_c e p <> e p.
Proof.
  exists (fun s => if String.eqb s "x" then -1 else 1), (fun p => p "x"%string). split; [intros p q H; apply H; right; left; reflexivity|].
  split; [cbn; lra|]. rewrite cartesian_reflected; [cbn; lra|intros p q H; apply H; right; left; reflexivity|cbn; lra].
Qed.
