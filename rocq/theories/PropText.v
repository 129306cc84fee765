(** C91: where the glyphs of a text are. *)
From Coq Require Import ZArith Bool List Lia Reals Lra.
From Flocq Require Import Core BinarySingleNaN Plus_error Relative.
From Verif Require Import F64 Text.
Import ListNotations.
Open Scope R_scope.

(** ** Specification *)
(** The characters of the last line of a text; how many lines come before it. *)
Fixpoint last_line (text : list Z) : list Z :=
  match text with
  | [] => []
  | ch :: text => if (existsb (Z.eqb 10) text) then last_line text else if (ch =? 10)%Z then text else ch :: text
  end.
Definition lines_before (text : list Z) : nat := List.length (filter (Z.eqb 10) text).
(** How many characters are drawn. *)
Definition drawn (text : list Z) : nat := List.length (filter (fun ch => negb (ch =? 10)%Z) text).
Definition width (glyph_of : Z -> Z) (advance : Z -> f32) (line : list Z) : R := fold_right (fun ch r => B2R (advance (glyph_of ch)) + r) 0 line.
(** [r] to [n] parts in 2^23. *)
Definition nearly (n : nat) (x : f32) (r : R) : Prop := is_finite x = true /\ Rabs (B2R x - r) <= INR n * / 8388608 * r.
(** A font with advances and lines of ordinary size. *)
Definition usual_font (advance : Z -> f32) (line_height : f32) : Prop :=
  (forall g, is_finite (advance g) = true /\ 0 <= B2R (advance g) <= 1048576) /\ is_finite line_height = true /\ 0 <= B2R line_height <= 1048576.

(** ** Sums *)
Lemma fadd32_near n x y r : is_finite y = true -> 0 <= B2R y <= 1048576 -> nearly n x r -> 0 <= r <= INR n * 1048576 -> (Z.of_nat n < 1048576)%Z ->
  nearly (S n) (fadd32 x y) (r + B2R y).
Proof.
  intros Fy By [Fx D] Br Hn. assert (In : INR n <= 1048576). { rewrite INR_IZR_INZ. apply IZR_le. lia. }
  assert (Pn := pos_INR n). set (u := / 16777216).
  assert (Hd : INR n * / 8388608 * r <= r). { apply Rle_trans with (1 * r); [apply Rmult_le_compat_r; lra|lra]. }
  assert (Rb : r <= 1048576 * 1048576) by (apply Rle_trans with (1 := proj2 Br); apply Rmult_le_compat_r; lra).
  assert (Bs : Rabs (B2R x + B2R y) <= 4398046511104) by (apply Rabs_le_inv in D; apply Rabs_le; lra).
  assert (Er : exists eps, Rabs eps <= u /\ round radix2 (SpecFloat.fexp 24 128) (round_mode mode_NE) (B2R x + B2R y) = (B2R x + B2R y) * (1 + eps)).
  { destruct (FLT_plus_error_N_ex radix2 (-149) 24 (fun z => negb (Z.even z)) (B2R x) (B2R y)) as (eps & He & Eq).
    - apply (generic_format_B2R 24 128 x).
    - apply (generic_format_B2R 24 128 y).
    - exists eps. split; [|exact Eq]. apply Rle_trans with (1 := He). unfold u_ro, u. change (bpow radix2 (- (24) + 1)) with (/ 8388608).
      apply Rle_trans with (/ 2 * / 8388608); [|lra]. unfold Rdiv. apply Rle_trans with (/ 2 * / 8388608 * 1); [|lra]. apply Rmult_le_compat_l; [lra|].
      rewrite <- Rinv_1. apply Rinv_le_contravar; lra. }
  destruct Er as (eps & He & Eq). set (s := B2R x + B2R y) in *.
  assert (Rr : Rabs (s * (1 + eps)) < bpow radix2 128).
  { rewrite Rabs_mult. assert (H1 : Rabs (1 + eps) <= 2) by (apply Rabs_le_inv in He; unfold u in He; apply Rabs_le; lra).
    apply Rle_lt_trans with (4398046511104 * 2); [apply Rmult_le_compat; auto using Rabs_pos|].
    apply Rlt_le_trans with (bpow radix2 64); [change (bpow radix2 64) with 18446744073709551616; lra|apply bpow_le; lia]. }
  pose proof (Bplus_correct 24 128 _ _ mode_NE x y Fx Fy) as C. fold s in C. rewrite Eq in C. rewrite Rlt_bool_true in C by exact Rr. destruct C as (C1 & C2 & _).
  split; [exact C2|]. unfold fadd32. rewrite C1. replace (s * (1 + eps) - (r + B2R y)) with ((B2R x - r) + s * eps) by (unfold s; ring).
  apply Rle_trans with (1 := Rabs_triang _ _). rewrite Rabs_mult.
  assert (Hs : Rabs s <= 2 * (r + B2R y)).
  { replace s with ((B2R x - r) + (r + B2R y)) by (unfold s; ring). apply Rle_trans with (1 := Rabs_triang _ _). rewrite (Rabs_pos_eq (r + B2R y)) by lra. lra. }
  assert (Hse : Rabs s * Rabs eps <= / 8388608 * (r + B2R y)).
  { apply Rle_trans with (2 * (r + B2R y) * u); [apply Rmult_le_compat; auto using Rabs_pos|unfold u; lra]. }
  rewrite S_INR. assert (0 <= INR n * / 8388608 * B2R y) by (apply Rmult_le_pos; [|lra]; apply Rmult_le_pos; lra). lra.
Qed.
(** ** C91 *)
Section Text.
Context (glyph_of : Z -> Z) (advance : Z -> f32) (line_height : f32).
(** One glyph for every character that is not a new line, in order. *)
Theorem C91_glyphs : forall text, map g_id (glyphs glyph_of advance line_height text) = map glyph_of (filter (fun ch => negb (ch =? 10)%Z) text).
Proof.
  intros text. unfold glyphs. generalize f32_0 at 1 as x. generalize f32_0 as y. induction text as [|ch text IH]; intros x y; [reflexivity|].
  cbn [layout filter]. destruct (ch =? 10)%Z; cbn [negb map]; [apply IH|]. cbn [g_id]. f_equal. apply IH.
Qed.
Lemma last_line_snoc text ch : last_line (text ++ [ch]) = if (ch =? 10)%Z then [] else last_line text ++ [ch].
Proof.
  induction text as [|c text IH]; [cbn; destruct (ch =? 10)%Z; reflexivity|]. cbn [app last_line]. rewrite IH.
  rewrite existsb_app. cbn [existsb]. rewrite orb_false_r, (Z.eqb_sym 10 ch). destruct (ch =? 10)%Z; [now rewrite orb_true_r|]. rewrite orb_false_r.
  destruct (existsb (Z.eqb 10) text); [reflexivity|]. destruct (c =? 10)%Z; reflexivity.
Qed.
Lemma layout_app x y a b : exists x' y', layout glyph_of advance line_height x y (a ++ b) = layout glyph_of advance line_height x y a ++ layout glyph_of advance line_height x' y' b /\
  x' = fold_left (fun p ch => if (ch =? 10)%Z then f32_0 else fadd32 p (advance (glyph_of ch))) a x /\
  y' = fold_left (fun p ch => if (ch =? 10)%Z then fadd32 p line_height else p) a y.
Proof.
  revert x y. induction a as [|ch a IH]; intros x y; [exists x, y; auto|]. cbn [app layout fold_left]. destruct (ch =? 10)%Z.
  - apply IH.
  - destruct (IH (fadd32 x (advance (glyph_of ch))) y) as (x' & y' & -> & Hx & Hy). exists x', y'. auto.
Qed.
Lemma layout_length x y a : List.length (layout glyph_of advance line_height x y a) = drawn a.
Proof.
  revert x y. unfold drawn. induction a as [|ch a IH]; intros x y; [reflexivity|]. cbn [layout filter]. destruct (ch =? 10)%Z; cbn [negb List.length]; now rewrite IH.
Qed.
Lemma width_snoc l ch : width glyph_of advance (l ++ [ch]) = width glyph_of advance l + B2R (advance (glyph_of ch)).
Proof. unfold width. induction l as [|c l IH]; cbn; [ring|]. rewrite IH. ring. Qed.
Lemma pen_x a : usual_font advance line_height -> (Z.of_nat (List.length (last_line a)) <= 1048576)%Z ->
  nearly (List.length (last_line a)) (fold_left (fun p ch => if (ch =? 10)%Z then f32_0 else fadd32 p (advance (glyph_of ch))) a f32_0) (width glyph_of advance (last_line a)) /\
  0 <= width glyph_of advance (last_line a) <= INR (List.length (last_line a)) * 1048576.
Proof.
  intros (Fa & _). induction a as [|ch a IH] using rev_ind.
  - intros _. cbn. split; [|lra]. split; [reflexivity|]. cbn. replace (0 - 0) with 0 by ring. rewrite Rabs_R0. lra.
  - rewrite fold_left_app, last_line_snoc. cbn [fold_left]. destruct (ch =? 10)%Z.
    + intros _. cbn. split; [|lra]. split; [reflexivity|]. cbn. replace (0 - 0) with 0 by ring. rewrite Rabs_R0. lra.
    + rewrite app_length, Nat.add_1_r. intros Hn. destruct IH as [N B]; [lia|]. rewrite width_snoc. destruct (Fa (glyph_of ch)) as [F Bc].
      split; [apply fadd32_near; auto; lia|]. rewrite S_INR. lra.
Qed.
Lemma pen_y a : usual_font advance line_height -> (Z.of_nat (lines_before a) <= 1048576)%Z ->
  nearly (lines_before a) (fold_left (fun p ch => if (ch =? 10)%Z then fadd32 p line_height else p) a f32_0) (INR (lines_before a) * B2R line_height).
Proof.
  intros (_ & Fl & Bl). unfold lines_before. induction a as [|ch a IH] using rev_ind.
  - intros _. split; [reflexivity|]. cbn. replace (0 - 0 * B2R line_height) with 0 by ring. rewrite Rabs_R0. lra.
  - rewrite fold_left_app, filter_app, app_length. cbn [fold_left filter]. rewrite (Z.eqb_sym 10 ch). destruct (ch =? 10)%Z; cbn [List.length]; [|rewrite Nat.add_0_r; exact IH].
    rewrite Nat.add_1_r. intros Hn. rewrite S_INR, Rmult_plus_distr_r, Rmult_1_l. pose proof (pos_INR (List.length (filter (Z.eqb 10) a))) as P.
    apply fadd32_near; [exact Fl|exact Bl|apply IH; lia| |lia]. split; [apply Rmult_le_pos; lra|]. apply Rmult_le_compat_l; lra.
Qed.
(** The glyph of a character is as far right as the characters before it in its
    line are wide, and as far down as the lines before it are high. *)
Theorem C91_place : forall before ch after, usual_font advance line_height -> ch <> 10%Z ->
  (Z.of_nat (List.length (last_line before)) <= 1048576)%Z -> (Z.of_nat (lines_before before) <= 1048576)%Z ->
  exists g, nth_error (glyphs glyph_of advance line_height (before ++ ch :: after)) (drawn before) = Some g /\ g_id g = glyph_of ch /\
    nearly (List.length (last_line before)) (g_x g) (width glyph_of advance (last_line before)) /\
    nearly (lines_before before) (g_y g) (INR (lines_before before) * B2R line_height).
Proof.
  intros before ch after U Nc Hl Hb. unfold glyphs. destruct (layout_app f32_0 f32_0 before (ch :: after)) as (x & y & -> & Hx & Hy).
  rewrite nth_error_app2 by (rewrite layout_length; auto). rewrite layout_length, Nat.sub_diag. cbn [layout].
  destruct (Z.eqb_spec ch 10); [contradiction|]. eexists. split; [reflexivity|]. cbn [g_id g_x g_y]. split; [reflexivity|]. rewrite Hx, Hy.
  split; [now apply pen_x|now apply pen_y].
Qed.
(** A line starts at the left. *)
Theorem C91_starts : forall before ch after, ch <> 10%Z -> last_line before = [] ->
  exists g, nth_error (glyphs glyph_of advance line_height (before ++ ch :: after)) (drawn before) = Some g /\ g_x g = f32_0.
Proof.
  intros before ch after Nc Hl. unfold glyphs. destruct (layout_app f32_0 f32_0 before (ch :: after)) as (x & y & -> & Hx & Hy).
  rewrite nth_error_app2 by (rewrite layout_length; auto). rewrite layout_length, Nat.sub_diag. cbn [layout].
  destruct (Z.eqb_spec ch 10); [contradiction|]. eexists. split; [reflexivity|]. cbn [g_x]. rewrite Hx.
  destruct before as [|c b] using rev_ind; [reflexivity|]. rewrite last_line_snoc in Hl. rewrite fold_left_app. cbn [fold_left].
  destruct (c =? 10)%Z; [reflexivity|]. now destruct (last_line b).
Qed.
End Text.
(** A text of two lines in a font with glyphs of half the height of a line. *)
Definition width_of (g : Z) : f32 := binary_normalize 24 128 _ _ mode_NE 8 0 false.
Definition height : f32 := binary_normalize 24 128 _ _ mode_NE 16 0 false.
Example C91_applies : usual_font width_of height /\
  last_line [65; 10; 66; 67]%Z = [66; 67]%Z /\ lines_before [65; 10; 66; 67]%Z = 1%nat /\ drawn [65; 10; 66; 67]%Z = 3%nat /\
  map (fun g => (g_id g, B2SF (g_x g), B2SF (g_y g))) (glyphs (fun c => c - 64)%Z width_of height [65; 10; 66; 67; 68]%Z) =
  map (fun '(i, x, y) => (i, B2SF x, B2SF y))
   [(1, f32_0, f32_0); (2, f32_0, height); (3, width_of 0, height); (4, height, height)]%Z.
Proof.
  split; [|split; [reflexivity|]; split; [reflexivity|]; split; [reflexivity|]; vm_compute; reflexivity].
  assert (R : forall m z, (0 <= z <= 100)%Z -> m = z -> is_finite (binary_normalize 24 128 _ _ mode_NE m 0 false) = true /\ B2R (binary_normalize 24 128 prec32 emax32 mode_NE m 0 false) = IZR z).
  { intros m z Hz ->. pose proof (binary_normalize_correct 24 128 _ _ mode_NE z 0 false) as C.
    assert (G : F2R (Float radix2 z 0) = IZR z) by (unfold F2R; cbn; ring). cbv zeta in C. rewrite G in C.
    rewrite round_generic in C.
    - rewrite Rlt_bool_true in C; [destruct C as (C1 & C2 & _); auto|]. rewrite <- abs_IZR. apply Rlt_le_trans with (bpow radix2 24); [change (bpow radix2 24) with (IZR 16777216); apply IZR_lt; lia|apply bpow_le; lia].
    - apply valid_rnd_round_mode.
    - rewrite <- G. apply generic_format_F2R. intros Nz. unfold cexp, SpecFloat.fexp, SpecFloat.emin, FLT_exp. rewrite G.
      assert (M : (mag radix2 (IZR z) <= 7)%Z) by (apply mag_le_bpow; [intros E0; apply Nz; now apply eq_IZR in E0|rewrite <- abs_IZR; change (bpow radix2 7) with (IZR 128); apply IZR_lt; lia]). lia. }
  destruct (R 8 8)%Z as [F8 R8]; [lia|reflexivity|]. destruct (R 16 16)%Z as [F16 R16]; [lia|reflexivity|].
  unfold usual_font, width_of, height. split; [intros _; split; [exact F8|rewrite R8; lra]|]. split; [exact F16|rewrite R16; lra].
Qed.
