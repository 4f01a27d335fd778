(** hashlib.sha1 (FIPS 180-4), used by worker.py:221 and rng.py:165; the digest as a big-endian integer.
    Most theorems hold for every function instead of SHA-1; this one is for the concrete examples. *)
From Coq Require Import String Ascii.
From Verif Require Import Base.
Local Open Scope list_scope.
Local Open Scope Z_scope.

Definition m32 (x : Z) : Z := Z.land x 4294967295.
Definition rotl (n x : Z) : Z := m32 (Z.lor (Z.shiftl x n) (Z.shiftr x (32 - n))).

Definition bytes_of (s : string) : list Z := map (fun c => Z.of_nat (nat_of_ascii c)) (list_ascii_of_string s).

Fixpoint be_bytes (n : nat) (x : Z) : list Z :=
  match n with O => [] | S n' => Z.land (Z.shiftr x (8 * Z.of_nat n')) 255 :: be_bytes n' x end.

Definition pad (b : list Z) : list Z :=
  let l := length b in
  b ++ [128] ++ repeat 0 ((119 - l mod 64) mod 64)%nat ++ be_bytes 8 (8 * Z.of_nat l).

Fixpoint words (n : nat) (b : list Z) : list Z :=
  match n, b with
  | S n', a :: b1 :: c :: d :: r => (((a * 256 + b1) * 256 + c) * 256 + d) :: words n' r
  | _, _ => []
  end.

(** the message schedule, newest word first *)
Fixpoint expand (n : nat) (w : list Z) : list Z :=
  match n with
  | O => w
  | S n' => expand n' (rotl 1 (Z.lxor (Z.lxor (nth 2 w 0) (nth 7 w 0)) (Z.lxor (nth 13 w 0) (nth 15 w 0))) :: w)
  end.

Definition round (t : nat) (w : Z) (s : Z * Z * Z * Z * Z) : Z * Z * Z * Z * Z :=
  let '(a, b, c, d, e) := s in
  let '(f, k) :=
    if (t <? 20)%nat then (Z.lxor d (Z.land b (Z.lxor c d)), 1518500249)
    else if (t <? 40)%nat then (Z.lxor b (Z.lxor c d), 1859775393)
    else if (t <? 60)%nat then (Z.lor (Z.land b c) (Z.land d (Z.lor b c)), 2400959708)
    else (Z.lxor b (Z.lxor c d), 3395469782) in
  (m32 (rotl 5 a + f + e + k + w), a, rotl 30 b, c, d).

Fixpoint rounds (t : nat) (ws : list Z) (s : Z * Z * Z * Z * Z) : Z * Z * Z * Z * Z :=
  match ws with [] => s | w :: ws' => rounds (S t) ws' (round t w s) end.

Fixpoint blocks (n : nat) (b : list Z) (s : Z * Z * Z * Z * Z) : Z * Z * Z * Z * Z :=
  match n with
  | O => s
  | S n' =>
      let '(a, b1, c, d, e) := s in
      let '(a', b', c', d', e') := rounds 0 (rev (expand 64 (rev (words 16 (firstn 64 b))))) s in
      blocks n' (skipn 64 b) (m32 (a + a'), m32 (b1 + b'), m32 (c + c'), m32 (d + d'), m32 (e + e'))
  end.

Definition sha1 (s : string) : Z :=
  let b := pad (bytes_of s) in
  let '(a, b', c, d, e) := blocks (length b / 64) b (1732584193, 4023233417, 2562383102, 271733878, 3285377520) in
  (((a * 4294967296 + b') * 4294967296 + c) * 4294967296 + d) * 4294967296 + e.

(** the test vectors of the standard: "abc", "" and the 56 character message *)
Example sha1_abc : sha1 "abc" = 0xa9993e364706816aba3e25717850c26c9cd0d89d.
Proof. vm_compute. reflexivity. Qed.
Example sha1_empty : sha1 "" = 0xda39a3ee5e6b4b0d3255bfef95601890afd80709.
Proof. vm_compute. reflexivity. Qed.
Example sha1_two_blocks : sha1 "abcdbcdecdefdefgefghfghighijhijkijkljklmklmnlmnomnopnopq" = 0x84983e441c3bd26ebaae4aa1f95129e5e54670f1.
Proof. vm_compute. reflexivity. Qed.
