From Verif Require Import Base PyFloat.
Local Open Scope Z_scope.
Ltac Zify.zify_post_hook ::= idtac.

Lemma rne_err num den : 0 < den -> 2 * Z.abs (rne num den * den - num) <= den.
Proof.
  intros Hd. unfold rne.
  pose proof (Z.div_mod num den ltac:(lia)) as E.
  pose proof (Z.mod_pos_bound num den Hd) as B.
  set (q := num / den) in *. set (r := num mod den) in *.
  destruct (Z.compare_spec (2 * r) den) as [C|C|C].
  - destruct (Z.even q); nia.
  - nia.
  - nia.
Qed.

Lemma rne_exact q den : 0 < den -> rne (q * den) den = q.
Proof.
  intros Hd. unfold rne. rewrite Z.div_mul, Z.mod_mul by lia.
  destruct (Z.compare_spec (2 * 0) den); try lia.
Qed.

Lemma pow2_pos s : 0 <= s -> 0 < 2 ^ s.
Proof. intros. apply Z.pow_pos_nonneg; lia. Qed.

Lemma fexp_lower num den : 0 < num -> 0 < den ->
  let e := fexp num den in
  if 0 <=? e then den * 2 ^ e <= num else den <= num * 2 ^ (- e).
Proof.
  intros Hn Hd. cbv zeta. unfold fexp.
  pose proof (Z.log2_spec num Hn) as [L1 _].
  pose proof (Z.log2_spec den Hd) as [_ L2].
  set (a := Z.log2 num) in *. set (b := Z.log2 den) in *.
  assert (Ha : 0 <= a) by apply Z.log2_nonneg.
  assert (Hb : 0 <= b) by apply Z.log2_nonneg.
  set (k := a - b) in *.
  destruct (Z.leb_spec (den * 2 ^ Z.max k 0) (num * 2 ^ Z.max (- k) 0)) as [C|C].
  - destruct (Z.leb_spec 0 k) as [K|K].
    + rewrite Z.max_l in C by lia. rewrite Z.max_r in C by lia. rewrite Z.pow_0_r in C. lia.
    + rewrite (Z.max_r k 0), (Z.max_l (-k) 0) in C by lia. rewrite Z.pow_0_r in C. lia.
  - (* e = k - 1 : den < 2^(b+1), num >= 2^a *)
    destruct (Z.leb_spec 0 (k - 1)) as [K|K].
    + assert (E : 2 ^ Z.succ b * 2 ^ (k - 1) = 2 ^ a).
      { rewrite <- Z.pow_add_r by lia. f_equal. lia. }
      pose proof (pow2_pos K). nia.
    + assert (E : 2 ^ a * 2 ^ (- (k - 1)) = 2 ^ Z.succ b).
      { rewrite <- Z.pow_add_r by lia. f_equal. lia. }
      assert (0 < 2 ^ (- (k-1))) by (apply pow2_pos; lia). nia.
Qed.

(** relative error at most 2^-53, and the denominator is positive *)
Lemma rnd_spec num den : 0 < num -> 0 < den ->
  0 < fden (rnd num den) /\
  2 ^ 53 * Z.abs (fnum (rnd num den) * den - num * fden (rnd num den))
    <= num * fden (rnd num den).
Proof.
  intros Hn Hd. unfold rnd.
  destruct (Z.leb_spec num 0) as [C|_]; [lia|].
  pose proof (fexp_lower Hn Hd) as L. cbv zeta in L.
  set (e := fexp num den) in *.
  destruct (Z.leb_spec 0 (52 - e)) as [S|S]; cbn [fnum fden].
  - assert (P : 0 < 2 ^ (52 - e)) by (apply pow2_pos; lia).
    split; [exact P|].
    pose proof (@rne_err (num * 2 ^ (52 - e)) den Hd) as R.
    assert (B : 2 ^ 52 * den <= num * 2 ^ (52 - e)).
    { destruct (Z.leb_spec 0 e) as [E|E].
      - assert (2 ^ 52 = 2 ^ e * 2 ^ (52 - e)) as -> by (rewrite <- Z.pow_add_r by lia; f_equal; lia).
        nia.
      - assert (2 ^ (52 - e) = 2 ^ 52 * 2 ^ (- e)) as -> by (rewrite <- Z.pow_add_r by lia; f_equal; lia).
        assert (0 < 2 ^ 52) by (apply pow2_pos; lia). nia. }
    change (2 ^ 53) with (2 * 2 ^ 52).
    set (X := Z.abs _) in *. nia.
  - split; [lia|].
    assert (P : 0 < 2 ^ (- (52 - e))) by (apply pow2_pos; lia).
    set (t := 2 ^ (- (52 - e))) in *.
    pose proof (@rne_err num (den * t) ltac:(nia)) as R.
    destruct (Z.leb_spec 0 e) as [E|E]; [|lia].
    assert (B : 2 ^ 52 * (den * t) <= num).
    { assert (2 ^ e = 2 ^ 52 * t) as HE by (unfold t; rewrite <- Z.pow_add_r by lia; f_equal; lia).
      nia. }
    rewrite !Z.mul_1_r.
    replace (rne num (den * t) * t * den - num) with (rne num (den * t) * (den * t) - num) by ring.
    change (2 ^ 53) with (2 * 2 ^ 52).
    set (X := Z.abs _) in *. nia.
Qed.

Lemma rnd_num_nonneg num den : 0 < num -> 0 < den -> 0 <= fnum (rnd num den).
Proof.
  intros Hn Hd. destruct (rnd_spec Hn Hd) as [P E].
  set (f := rnd num den) in *.
  destruct (Z.le_gt_cases 0 (fnum f)) as [C|C]; [exact C|].
  assert (2 ^ 53 * (num * fden f) <= num * fden f) by (rewrite Z.abs_neq in E by nia; nia).
  assert (1 <= num * fden f) by nia. change (2 ^ 53) with 9007199254740992 in *. lia.
Qed.

Lemma rnd_num_pos num den : 0 < num -> 0 < den -> 0 < fnum (rnd num den).
Proof.
  intros Hn Hd. destruct (rnd_spec Hn Hd) as [P E].
  pose proof (rnd_num_nonneg Hn Hd).
  set (f := rnd num den) in *.
  destruct (Z.eq_dec (fnum f) 0) as [C|C]; [|lia].
  rewrite C in E. rewrite Z.abs_neq in E by nia.
  assert (1 <= num * fden f) by nia. change (2 ^ 53) with 9007199254740992 in *. lia.
Qed.

(** int(a / b) is the exact quotient for all sample counts below 2^53. *)
Lemma rnd_exact_int q den : 0 <= q < 2 ^ 53 -> 0 < den -> py_int (py_div (q * den) den) = q.
Proof.
  intros Hq Hd. unfold py_int, py_div, rnd.
  destruct (Z.leb_spec (q * den) 0) as [C|C].
  - assert (q = 0) by nia. subst q. reflexivity.
  - destruct (Z.leb_spec 0 (52 - fexp (q * den) den)) as [S|S]; cbn [fnum fden].
    + rewrite <- (Z.mul_assoc q), (Z.mul_comm den), Z.mul_assoc, rne_exact by lia.
      apply Z.div_mul. apply Z.neq_sym, Z.lt_neq, pow2_pos; lia.
    + exfalso. pose proof (@fexp_lower (q * den) den C Hd) as L. cbv zeta in L.
      set (e := fexp (q * den) den) in *.
      destruct (Z.leb_spec 0 e) as [E|E]; [|lia].
      assert (2 ^ e <= q) by nia.
      assert (2 ^ 53 <= 2 ^ e) by (apply Z.pow_le_mono_r; lia). lia.
Qed.

Lemma py_int_div_floor a b : 0 <= a < 2 ^ 53 -> 0 < b -> py_int (py_div a b) = a / b.
Proof.
  intros Ha Hb.
  pose proof (Z.div_mod a b ltac:(lia)) as E.
  pose proof (Z.mod_pos_bound a b Hb) as B.
  destruct (Z.eq_dec (a mod b) 0) as [Z0|NZ].
  - rewrite E, Z0, Z.add_0_r, (Z.mul_comm b). rewrite rnd_exact_int by nia.
    symmetry. apply Z.div_mul. lia.
  - assert (Hap : 0 < a).
    { destruct (Z.eq_dec a 0) as [->|]; [|lia]. rewrite Z.mod_0_l in NZ; lia. }
    destruct (rnd_spec Hap Hb) as [P R].
    unfold py_int, py_div. set (f := rnd a b) in *.
    set (q := a / b) in *. set (r := a mod b) in *.
    (* |fnum*b - a*fden| < fden  since a < 2^53 *)
    set (D := Z.abs (fnum f * b - a * fden f)) in *.
    assert (HD : D < fden f).
    { assert (0 <= D) by (unfold D; lia). nia. }
    unfold D in HD.
    assert (fnum f * b - a * fden f < fden f) by lia.
    assert (- fden f < fnum f * b - a * fden f) by lia.
    symmetry. apply Z.div_unique with (r := fnum f - q * fden f); [|ring].
    left. 
    assert (q * fden f <= fnum f).
    { assert (q * b + 1 <= a) by nia.
      assert (q * fden f * b < (fnum f + 0) * b + 0 + 1) by nia.
      nia. }
    assert (fnum f < (q + 1) * fden f).
    { assert (a + 1 <= (q + 1) * b) by nia.
      nia. }
    nia.
Qed.

(** int(k * (n / k)) is n or n - 1: it can be short by one, never by more and never too large. *)
Lemma py_mul_div_near n k : 0 < n < 2 ^ 51 -> 0 < k ->
  let r := py_int (py_mul k (py_div n k)) in r = n \/ r = n - 1.
Proof.
  intros Hn Hk. cbv zeta. unfold py_int, py_mul, py_div.
  assert (Hn0 : 0 < n) by lia.
  destruct (rnd_spec Hn0 Hk) as [P R].
  pose proof (rnd_num_pos Hn0 Hk) as FP.
  set (f := rnd n k) in *.
  assert (HX : 0 < k * fnum f) by nia.
  destruct (rnd_spec HX P) as [P2 R2].
  set (g := rnd (k * fnum f) (fden f)) in *.
  set (a := fnum f) in *. set (b := fden f) in *. set (c := fnum g) in *. set (d := fden g) in *.
  (* |a k - n b| 2^53 <= n b ; |c b - k a d| 2^53 <= k a d *)
  assert (A1 : 2 ^ 53 * Z.abs (a * k - n * b) <= n * b) by exact R.
  assert (A2 : 2 ^ 53 * Z.abs (c * b - k * a * d) <= k * a * d) by exact R2.
  (* total *)
  assert (B1 : a * k <= 2 * n * b).
  { change (2 ^ 53) with 9007199254740992 in A1. lia. }
  assert (T : 2 ^ 53 * Z.abs (c * b - n * b * d) <= 3 * (n * b * d)).
  { assert (Z.abs (c * b - n * b * d) <= Z.abs (c * b - k * a * d) + d * Z.abs (a * k - n * b)).
    { replace (d * Z.abs (a * k - n * b)) with (Z.abs (d * (a * k - n * b)))
        by (rewrite Z.abs_mul; f_equal; lia).
      replace (c * b - n * b * d) with ((c * b - k * a * d) + d * (a * k - n * b)) by ring. lia. }
    assert (k * a * d <= 2 * (n * b * d)) by nia.
    assert (d * (2 ^ 53 * Z.abs (a * k - n * b)) <= n * b * d) by nia.
    change (2 ^ 53) with 9007199254740992 in *. lia. }
  assert (T2 : 2 ^ 53 * Z.abs (c - n * d) <= 3 * (n * d)).
  { replace (c * b - n * b * d) with ((c - n * d) * b) in T by ring.
    rewrite Z.abs_mul, (Z.abs_eq b) in T by lia. nia. }
  assert (T3 : Z.abs (c - n * d) < d).
  { change (2 ^ 53) with 9007199254740992 in *. change (2 ^ 51) with 2251799813685248 in *. nia. }
  destruct (Z.le_gt_cases (n * d) c) as [C|C].
  - left. symmetry. apply Z.div_unique with (r := c - n * d); [left; lia|ring].
  - right. symmetry. apply Z.div_unique with (r := c - (n - 1) * d); [left; lia|ring].
Qed.

(** truncated multiples of a positive float are non-decreasing *)
Lemma py_mul_mono f i : 0 < fden f -> 0 < fnum f -> 0 <= i < 2 ^ 51 ->
  py_int (py_mul i f) <= py_int (py_mul (i + 1) f).
Proof.
  intros Hd Hf Hi. unfold py_int, py_mul.
  destruct (Z.eq_dec i 0) as [->|Hi0].
  - cbn [Z.mul]. change (rnd 0 (fden f)) with (mkf 0 1). cbn [fnum fden].
    change (0 / 1) with 0. assert (H1 : 0 < (0 + 1) * fnum f) by lia.
    destruct (rnd_spec H1 Hd) as [P _]. pose proof (rnd_num_nonneg H1 Hd).
    apply Z.div_pos; lia.
  - set (a := fnum f) in *. set (b := fden f) in *.
    assert (H1 : 0 < i * a) by nia. assert (H2 : 0 < (i + 1) * a) by nia.
    destruct (rnd_spec H1 Hd) as [P1 R1]. destruct (rnd_spec H2 Hd) as [P2 R2].
    set (g := rnd (i * a) b) in *. set (h := rnd ((i + 1) * a) b) in *.
    (* g <= h as rationals *)
    assert (G : fnum g * fden h <= fnum h * fden g).
    { assert (E1 : 2 ^ 53 * (fnum g * b - i * a * fden g) <= i * a * fden g) by lia.
      assert (E2 : 2 ^ 53 * ((i + 1) * a * fden h - fnum h * b) <= (i + 1) * a * fden h) by lia.
      assert (F1 : 2 ^ 53 * (fnum g * fden h * b) <= (2 ^ 53 + 1) * (i * (a * fden g * fden h))) by nia.
      assert (F2 : (2 ^ 53 - 1) * ((i + 1) * (a * fden g * fden h)) <= 2 ^ 53 * (fnum h * fden g * b)) by nia.
      assert (F3 : (2 ^ 53 + 1) * (i * (a * fden g * fden h)) <= (2 ^ 53 - 1) * ((i + 1) * (a * fden g * fden h))).
      { assert (0 < a * fden g * fden h) by nia.
        change (2 ^ 53) with 9007199254740992 in *. change (2 ^ 51) with 2251799813685248 in *. nia. }
      nia. }
    apply Z.div_le_lower_bound; [exact P2|].
    pose proof (Z.mul_div_le (fnum g) (fden g) P1).
    set (q := fnum g / fden g) in *. nia.
Qed.

(** int(k * (n/k)) can really be n - 1 (1024 samples in 49 slices). *)
Lemma py_mul_div_loses : py_int (py_mul 49 (py_div 1024 49)) = 1023.
Proof. vm_compute. reflexivity. Qed.
