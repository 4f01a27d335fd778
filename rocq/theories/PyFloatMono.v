(** Rounding to double precision is monotone and leaves doubles unchanged. *)
From Verif Require Import Base PyFloat PyFloatProofs.
Local Open Scope Z_scope.
Ltac Zify.zify_post_hook ::= idtac.

Definition px (e : Z) : Z := 2 ^ (Z.max e 0).
Lemma px_pos e : 0 < px e.
Proof. apply pow2_pos. lia. Qed.

(** 2^x / 2^-y comparisons *)
Lemma px_le x y : x <= y -> px x * px (- y) <= px y * px (- x).
Proof. intros H. unfold px. rewrite <- !Z.pow_add_r by lia. apply Z.pow_le_mono_r; lia. Qed.
Lemma px_lt2 x y : x < y -> 2 * (px x * px (- y)) <= px y * px (- x).
Proof.
  intros H. unfold px. rewrite <- !Z.pow_add_r by lia. rewrite <- (Z.pow_1_r 2) at 1. rewrite <- Z.pow_add_r by lia.
  apply Z.pow_le_mono_r; lia.
Qed.

Lemma fexp_bounds num den : 0 < num -> 0 < den ->
  let e := fexp num den in
  den * px e <= num * px (- e) /\ num * px (- (e + 1)) < den * px (e + 1).
Proof.
  intros Hn Hd. cbv zeta. unfold fexp, px.
  pose proof (Z.log2_spec num Hn) as [L1 U1]. pose proof (Z.log2_spec den Hd) as [L2 U2].
  set (a := Z.log2 num) in *. set (b := Z.log2 den) in *.
  assert (Ha : 0 <= a) by apply Z.log2_nonneg. assert (Hb : 0 <= b) by apply Z.log2_nonneg.
  set (k := a - b) in *.
  destruct (Z.leb_spec (den * 2 ^ Z.max k 0) (num * 2 ^ Z.max (- k) 0)) as [C|C].
  - split; [exact C|].
    assert (E : 2 ^ Z.succ a * 2 ^ (Z.max (- (k + 1)) 0) <= 2 ^ b * 2 ^ Z.max (k + 1) 0).
    { rewrite <- !Z.pow_add_r by lia. apply Z.pow_le_mono_r; lia. }
    assert (0 < 2 ^ Z.max (- (k + 1)) 0) by (apply pow2_pos; lia).
    assert (0 < 2 ^ Z.max (k + 1) 0) by (apply pow2_pos; lia). nia.
  - split.
    + assert (E : 2 ^ Z.succ b * 2 ^ (Z.max (k - 1) 0) <= 2 ^ a * 2 ^ Z.max (- (k - 1)) 0).
      { rewrite <- !Z.pow_add_r by lia. apply Z.pow_le_mono_r; lia. }
      assert (0 < 2 ^ Z.max (k - 1) 0) by (apply pow2_pos; lia).
      assert (0 < 2 ^ Z.max (- (k - 1)) 0) by (apply pow2_pos; lia). nia.
    + replace (k - 1 + 1) with k by ring. exact C.
Qed.

Lemma rne_mono a b c d : 0 < b -> 0 < d -> a * d <= c * b -> rne a b <= rne c d.
Proof.
  intros Hb Hd H. unfold rne.
  pose proof (Z.div_mod a b ltac:(lia)) as E1. pose proof (Z.mod_pos_bound a b Hb) as B1.
  pose proof (Z.div_mod c d ltac:(lia)) as E2. pose proof (Z.mod_pos_bound c d Hd) as B2.
  set (q1 := a / b) in *. set (r1 := a mod b) in *. set (q2 := c / d) in *. set (r2 := c mod d) in *.
  assert (Q : q1 <= q2).
  { unfold q1, q2. apply Z.div_le_lower_bound; [exact Hd|]. pose proof (Z.mul_div_le a b Hb).
    assert (d * (a / b) * b <= c * b) by nia. nia. }
  destruct (Z.eq_dec q1 q2) as [EQ|NE].
  - rewrite EQ in *. assert (R : r1 * d <= r2 * b) by nia.
    destruct (Z.compare_spec (2 * r1) b) as [C1|C1|C1]; destruct (Z.compare_spec (2 * r2) d) as [C2|C2|C2];
      try destruct (Z.even q2); nia.
  - destruct (Z.compare_spec (2 * r1) b); destruct (Z.compare_spec (2 * r2) d);
      destruct (Z.even q1); destruct (Z.even q2); lia.
Qed.

(** the significand: A/B = num/den * 2^s *)
Definition sA (num s : Z) : Z := num * px s.
Definition sB (den s : Z) : Z := den * px (- s).

Lemma rnd_form num den : 0 < num -> 0 < den ->
  let s := 52 - fexp num den in
  let r := rne (sA num s) (sB den s) in
  fnum (rnd num den) = r * px (- s) /\ fden (rnd num den) = px s /\
  2 ^ 52 * sB den s <= sA num s /\ sA num s < 2 ^ 53 * sB den s /\ 2 ^ 52 <= r <= 2 ^ 53.
Proof.
  intros Hn Hd. cbv zeta. pose proof (fexp_bounds Hn Hd) as [L U]. cbv zeta in L, U. unfold rnd.
  destruct (Z.leb_spec num 0) as [C|_]; [lia|]. set (e := fexp num den) in *. set (s := 52 - e) in *.
  assert (PA : 0 < px s) by apply px_pos. assert (PB : 0 < px (- s)) by apply px_pos.
  assert (BB : 0 < sB den s) by (unfold sB; nia).
  assert (LO : 2 ^ 52 * sB den s <= sA num s).
  { unfold sA, sB. assert (E : px (-s) * 2 ^ 52 * px (- e) = px e * px s).
    { unfold px. rewrite <- !Z.pow_add_r by lia. f_equal. lia. }
    assert (0 < px e) by apply px_pos. assert (0 < px (- e)) by apply px_pos.
    assert (M : 2 ^ 52 * (den * px (- s)) * px (- e) <= num * px s * px (- e)).
    { replace (2 ^ 52 * (den * px (- s)) * px (- e)) with (den * (px (- s) * 2 ^ 52 * px (- e))) by ring. rewrite E.
      replace (den * (px e * px s)) with (den * px e * px s) by ring.
      replace (num * px s * px (- e)) with (num * px (- e) * px s) by ring. nia. }
    nia. }
  assert (UP : sA num s < 2 ^ 53 * sB den s).
  { unfold sA, sB. assert (E : px (-s) * 2 ^ 53 * px (- (e + 1)) = px (e + 1) * px s).
    { unfold px. rewrite <- !Z.pow_add_r by lia. f_equal. lia. }
    assert (0 < px (e + 1)) by apply px_pos. assert (0 < px (- (e + 1))) by apply px_pos.
    assert (M : num * px s * px (- (e + 1)) < 2 ^ 53 * (den * px (- s)) * px (- (e + 1))).
    { replace (2 ^ 53 * (den * px (- s)) * px (- (e + 1))) with (den * (px (- s) * 2 ^ 53 * px (- (e + 1)))) by ring. rewrite E.
      replace (den * (px (e + 1) * px s)) with (den * px (e + 1) * px s) by ring.
      replace (num * px s * px (- (e + 1))) with (num * px (- (e + 1)) * px s) by ring. nia. }
    nia. }
  assert (RB : 2 ^ 52 <= rne (sA num s) (sB den s) <= 2 ^ 53).
  { split.
    - rewrite <- (@rne_exact (2 ^ 52) 1) by lia. apply rne_mono; lia.
    - rewrite <- (@rne_exact (2 ^ 53) 1) by lia. apply rne_mono; lia. }
  repeat split; try assumption; try apply RB.
  - unfold sA, sB, px. destruct (Z.leb_spec 0 s) as [S|S]; cbn [fnum].
    + rewrite (Z.max_l s 0), (Z.max_r (- s) 0) by lia. rewrite Z.pow_0_r, !Z.mul_1_r. reflexivity.
    + rewrite (Z.max_r s 0), (Z.max_l (- s) 0) by lia. rewrite Z.pow_0_r, !Z.mul_1_r. reflexivity.
  - unfold px. destruct (Z.leb_spec 0 s) as [S|S]; cbn [fden]; [rewrite Z.max_l by lia; reflexivity|].
    rewrite Z.max_r by lia. reflexivity.
Qed.

Definition fle (f g : pyfloat) : Prop := fnum f * fden g <= fnum g * fden f.

Lemma fexp_mono a b c d : 0 < a -> 0 < b -> 0 < c -> 0 < d -> a * d <= c * b -> fexp a b <= fexp c d.
Proof.
  intros Ha Hb Hc Hd H. destruct (Z.le_gt_cases (fexp a b) (fexp c d)) as [|G]; [assumption|exfalso].
  destruct (fexp_bounds Ha Hb) as [L _]. destruct (fexp_bounds Hc Hd) as [_ U]. cbv zeta in *.
  set (e := fexp a b) in *. set (x := fexp c d + 1) in *.
  assert (P : px x * px (- e) <= px e * px (- x)) by (apply px_le; lia).
  pose proof (px_pos x). pose proof (px_pos (- x)). pose proof (px_pos e). pose proof (px_pos (- e)).
  (* b px e <= a px -e ; c px -x < d px x *)
  assert (M1 : b * px e * (d * px (- x)) <= a * px (- e) * (d * px (- x))) by nia.
  assert (M2 : c * px (- x) * (b * px (- e)) < d * px x * (b * px (- e))) by nia.
  assert (M3 : a * d * (px (- e) * px (- x)) <= c * b * (px (- e) * px (- x))) by nia.
  assert (M4 : b * d * (px x * px (- e)) <= b * d * (px e * px (- x))) by nia.
  lia.
Qed.

Lemma rnd_mono_pos a b c d : 0 < a -> 0 < b -> 0 < c -> 0 < d -> a * d <= c * b -> fle (rnd a b) (rnd c d).
Proof.
  intros Ha Hb Hc Hd H. pose proof (fexp_mono Ha Hb Hc Hd H) as EM.
  destruct (rnd_form Ha Hb) as (N1 & D1 & L1 & U1 & R1). destruct (rnd_form Hc Hd) as (N2 & D2 & L2 & U2 & R2). cbv zeta in *.
  unfold fle. rewrite N1, D1, N2, D2. set (s1 := 52 - fexp a b) in *. set (s2 := 52 - fexp c d) in *.
  assert (S : s2 <= s1) by lia. clear EM N1 D1 N2 D2.
  pose proof (px_pos s1). pose proof (px_pos s2). pose proof (px_pos (- s1)). pose proof (px_pos (- s2)).
  set (r1 := rne (sA a s1) (sB b s1)) in *. set (r2 := rne (sA c s2) (sB d s2)) in *.
  destruct (Z.eq_dec s1 s2) as [E|NE].
  - assert (r1 <= r2); [|rewrite E in *; nia]. unfold r1, r2. rewrite E. unfold sA, sB. apply rne_mono; nia.
  - assert (P : 2 * (px s2 * px (- s1)) <= px s1 * px (- s2)) by (apply px_lt2; lia).
    change (2 ^ 52) with 4503599627370496 in *. change (2 ^ 53) with 9007199254740992 in *.
    assert (r1 * (px s2 * px (- s1)) <= 9007199254740992 * (px s2 * px (- s1))) by nia.
    assert (4503599627370496 * (px s1 * px (- s2)) <= r2 * (px s1 * px (- s2))) by nia. nia.
Qed.

(** a number that double arithmetic can produce *)
Definition is_double (f : pyfloat) : Prop := exists num den, 0 < den /\ f = rnd num den.

Lemma double_den f : is_double f -> 0 < fden f /\ 0 <= fnum f.
Proof.
  intros (a & b & Hb & ->). destruct (Z.le_gt_cases a 0) as [C|C].
  - unfold rnd. destruct (Z.leb_spec a 0); [cbn; lia|lia].
  - split; [apply rnd_spec; lia|apply rnd_num_nonneg; lia].
Qed.

Lemma rnd_nonpos a b : a <= 0 -> rnd a b = mkf 0 1.
Proof. intros H. unfold rnd. destruct (Z.leb_spec a 0); [reflexivity|lia]. Qed.

Lemma rnd_mono a b c d : 0 < b -> 0 < d -> a * d <= c * b -> fle (rnd a b) (rnd c d).
Proof.
  intros Hb Hd H. destruct (Z.le_gt_cases a 0) as [A|A].
  - rewrite (rnd_nonpos b A). assert (is_double (rnd c d)) as D by (exists c, d; auto). apply double_den in D. unfold fle. cbn [fnum fden]. lia.
  - assert (0 < c) by nia. apply rnd_mono_pos; auto.
Qed.

(** a significand of at most 53 bits is not changed *)
Lemma rnd_exact_sig r s : 2 ^ 52 <= r <= 2 ^ 53 ->
  fle (mkf (r * px (- s)) (px s)) (rnd (r * px (- s)) (px s)) /\ fle (rnd (r * px (- s)) (px s)) (mkf (r * px (- s)) (px s)).
Proof.
  intros R. pose proof (px_pos s) as P1. pose proof (px_pos (- s)) as P2.
  assert (HN : 0 < r * px (- s)) by (change (2 ^ 52) with 4503599627370496 in R; nia).
  destruct (rnd_form HN P1) as (N & D & L & U & RR). cbv zeta in *.
  set (t := 52 - fexp (r * px (- s)) (px s)) in *.
  pose proof (px_pos t) as P3. pose proof (px_pos (- t)) as P4.
  (* t = s or t = s - 1 *)
  assert (T : t <= s).
  { destruct (Z.le_gt_cases t s) as [|G]; [assumption|exfalso]. unfold sA, sB in U.
    assert (Q : 2 * (px s * px (- t)) <= px t * px (- s)) by (apply px_lt2; lia).
    assert (r * (px t * px (- s)) < 2 ^ 53 * (px s * px (- t))) by lia.
    change (2 ^ 52) with 4503599627370496 in *. change (2 ^ 53) with 9007199254740992 in *. nia. }
  assert (T2 : s - 1 <= t).
  { destruct (Z.le_gt_cases (s - 1) t) as [|G]; [assumption|exfalso]. unfold sA, sB in L.
    assert (Q : 2 * (2 * (px t * px (- s))) <= px s * px (- t)).
    { replace (2 * (2 * (px t * px (- s)))) with (2 ^ 2 * (px t * px (- s))) by ring. unfold px. rewrite <- !Z.pow_add_r by lia. apply Z.pow_le_mono_r; lia. }
    change (2 ^ 52) with 4503599627370496 in *. change (2 ^ 53) with 9007199254740992 in *. nia. }
  assert (X : exists q, sA (r * px (- s)) t = q * sB (px s) t).
  { unfold sA, sB. destruct (Z.eq_dec t s) as [->|NE].
    - exists r. ring.
    - assert (t = s - 1) by lia. clear T T2 NE.
      assert (PE : px s * px (- t) = 2 * (px t * px (- s))).
      { replace (2 * (px t * px (- s))) with (2 ^ 1 * (px t * px (- s))) by ring. unfold px. rewrite <- !Z.pow_add_r by lia. f_equal. lia. }
      assert (R2 : r = 2 ^ 53).
      { unfold sA, sB in L. change (2 ^ 52) with 4503599627370496 in *. change (2 ^ 53) with 9007199254740992 in *.
        assert (0 < px t * px (- s)) by nia. nia. }
      exists (2 ^ 52). rewrite PE, R2. change (2 ^ 53) with (2 ^ 52 * 2). ring. }
  destruct X as [q X]. unfold fle. cbn [fnum fden]. rewrite N, D, X, rne_exact by (unfold sB; nia).
  unfold sA, sB in X. split; nia.
Qed.

Lemma fle_trans f g h : 0 < fden f -> 0 < fden g -> 0 < fden h -> fle f g -> fle g h -> fle f h.
Proof. unfold fle. intros. assert (fnum f * fden h * fden g <= fnum h * fden f * fden g) by nia. nia. Qed.

Lemma double_le_rnd f num den : is_double f -> 0 < den -> fnum f * den <= num * fden f -> fle f (rnd num den).
Proof.
  intros DB Hd H. pose proof (double_den DB) as [PD PN]. destruct DB as (a & b & Hb & EF).
  destruct (Z.le_gt_cases a 0) as [A|A].
  - rewrite (rnd_nonpos b A) in EF. subst f. assert (is_double (rnd num den)) as D by (exists num, den; auto). apply double_den in D.
    unfold fle. cbn [fnum fden]. lia.
  - destruct (rnd_form A Hb) as (N & D & L & U & R). cbv zeta in *. set (s := 52 - fexp a b) in *. set (r := rne _ _) in *.
    rewrite <- EF in N, D. assert (E : f = mkf (r * px (- s)) (px s)) by (destruct f; cbn in *; congruence).
    assert (P : 0 < px s) by apply px_pos.
    assert (is_double (rnd num den)) as D2 by (exists num, den; auto). apply double_den in D2.
    apply fle_trans with (g := rnd (r * px (- s)) (px s)); [exact PD| |apply D2|rewrite E; apply rnd_exact_sig; exact R|].
    + apply rnd_spec; [|exact P]. pose proof (px_pos (- s)). change (2 ^ 52) with 4503599627370496 in *. nia.
    + apply rnd_mono; [exact P|exact Hd|]. rewrite N, D in H. exact H.
Qed.

(** adding a non-negative double does not decrease *)
Lemma py_add_ge f g : is_double f -> is_double g -> fle f (py_add f g).
Proof.
  intros Df Dg. pose proof (double_den Df) as [A B]. pose proof (double_den Dg) as [C D]. unfold py_add. apply double_le_rnd; [exact Df|nia|nia].
Qed.

Lemma py_add_double f g : is_double f -> is_double g -> is_double (py_add f g).
Proof. intros Df Dg. apply double_den in Df, Dg. eexists _, _. split; [|reflexivity]. nia. Qed.

Lemma py_fdiv_double f g : is_double f -> is_double g -> 0 < fnum g -> is_double (py_fdiv f g).
Proof. intros Df Dg H. apply double_den in Df, Dg. eexists _, _. split; [|reflexivity]. nia. Qed.

Lemma py_int_mul_mono n f g : 0 <= n -> is_double f -> is_double g -> fle f g -> py_int (py_mul n f) <= py_int (py_mul n g).
Proof.
  intros Hn Df Dg H. pose proof (double_den Df) as [A B]. pose proof (double_den Dg) as [C D]. unfold fle in H. unfold py_int, py_mul.
  assert (M : fle (rnd (n * fnum f) (fden f)) (rnd (n * fnum g) (fden g))) by (apply rnd_mono; try assumption; nia).
  assert (is_double (rnd (n * fnum f) (fden f))) as D1 by (eexists _, _; split; [|reflexivity]; assumption).
  assert (is_double (rnd (n * fnum g) (fden g))) as D2 by (eexists _, _; split; [|reflexivity]; assumption).
  apply double_den in D1, D2. unfold fle in M. destruct D1 as [D1 D1']. destruct D2 as [D2 D2'].
  set (x := rnd (n * fnum f) (fden f)) in *. set (y := rnd (n * fnum g) (fden g)) in *.
  apply Z.div_le_lower_bound; [exact D2|]. pose proof (Z.mul_div_le (fnum x) (fden x) D1).
  set (q := fnum x / fden x) in *. assert (fden y * q * fden x <= fnum y * fden x) by nia. nia.
Qed.
