(** Common imports and small list helpers shared by all model files.
    Nothing in this file models repository code except the [result] type, which represents
    "a Python call either returns a value or raises an exception". *)
From Coq Require Export List Arith ZArith Lia Bool Permutation.
From Coq Require Export ZifyBool ZifyNat.
Export ListNotations.
#[export] Set Implicit Arguments.
#[export] Unset Strict Implicit.

(** Exceptions the modelled Python code can raise (as values). *)
Inductive exn : Type :=
| ValueError      (* raise ValueError(...) *)
| AssertionError  (* a failing assert *)
| IndexError
| KeyError
| TypeError
| RuntimeError
| ZeroDivisionError
| StopIterationError
| OtherError.

Inductive result (A : Type) : Type :=
| Ok (a : A)
| Err (e : exn).
Arguments Ok {A} a.
Arguments Err {A} e.

Definition bind {A B} (r : result A) (f : A -> result B) : result B :=
  match r with Ok a => f a | Err e => Err e end.

(** Python slicing l[a:b] for 0 <= a, b. *)
Definition slice {A} (a b : nat) (l : list A) : list A := firstn (b - a) (skipn a l).

(** Python item assignment l[i] = v (no effect out of range; the code's uses are in range). *)
Fixpoint upd {A} (l : list A) (i : nat) (v : A) : list A :=
  match l, i with
  | [], _ => []
  | _ :: l', O => v :: l'
  | x :: l', S i' => x :: upd l' i' v
  end.

Definition zsum (l : list Z) : Z := fold_right Z.add 0%Z l.

(** all Ok, or the first error: list(generator) *)
Fixpoint sequence {A} (l : list (result A)) : result (list A) :=
  match l with
  | [] => Ok []
  | Ok a :: l' => match sequence l' with Ok r => Ok (a :: r) | Err e => Err e end
  | Err e :: _ => Err e
  end.

(* ---- lemmas ---- *)
Lemma upd_length {A} (l : list A) i v : length (upd l i v) = length l.
Proof. revert i; induction l as [|x l IH]; intros [|i]; simpl; auto. Qed.

Lemma nth_upd_same {A} (l : list A) i v d : i < length l -> nth i (upd l i v) d = v.
Proof. revert i; induction l as [|x l IH]; intros [|i] H; simpl in *; try lia; auto.
  apply IH; lia. Qed.

Lemma nth_upd_other {A} (l : list A) i j v d : i <> j -> nth j (upd l i v) d = nth j l d.
Proof. revert i j; induction l as [|x l IH]; intros [|i] [|j] H; simpl in *; try lia; auto. Qed.

Lemma nth_error_upd_same {A} (l : list A) i v : i < length l -> nth_error (upd l i v) i = Some v.
Proof. revert i; induction l as [|x l IH]; intros [|i] H; simpl in *; try lia; auto.
  apply IH; lia. Qed.

Lemma nth_error_upd_other {A} (l : list A) i j v :
  i <> j -> nth_error (upd l i v) j = nth_error l j.
Proof. revert i j; induction l as [|x l IH]; intros [|i] [|j] H; simpl in *; try lia; auto. Qed.

Lemma zsum_app l1 l2 : zsum (l1 ++ l2) = (zsum l1 + zsum l2)%Z.
Proof. induction l1 as [|x l IH]; cbn [zsum fold_right app] in *; [reflexivity|].
  change (fold_right Z.add 0%Z (l ++ l2)) with (zsum (l ++ l2)).
  change (fold_right Z.add 0%Z l) with (zsum l). lia. Qed.

Lemma zsum_cons x l : zsum (x :: l) = (x + zsum l)%Z.
Proof. reflexivity. Qed.

Lemma zsum_Permutation l1 l2 : Permutation l1 l2 -> zsum l1 = zsum l2.
Proof. induction 1; rewrite ?zsum_cons in *; try lia; reflexivity. Qed.

Lemma map_seq_shift {A} (g : nat -> A) k b n : map g (seq (k + b) n) = map (fun i => g (k + i)) (seq b n).
Proof. revert b; induction n as [|n IH]; intros b; cbn [seq map]; [reflexivity|].
  f_equal. rewrite <- IH. do 2 f_equal. lia. Qed.

Lemma nth_error_map_some {A B} (f : A -> B) l i x : nth_error l i = Some x -> nth_error (map f l) i = Some (f x).
Proof. intros H. rewrite nth_error_map, H. reflexivity. Qed.

Lemma skipn_cons_nth {A} (l : list A) : forall o x, nth_error l o = Some x -> skipn o l = x :: skipn (S o) l.
Proof. induction l as [|y l IH]; intros [|o] x H; try discriminate; cbn in *; [congruence|].
  apply IH. exact H. Qed.

Lemma skipn_add {A} (l : list A) : forall a b, skipn (a + b) l = skipn b (skipn a l).
Proof. induction l as [|x l IH]; intros [|a] b; cbn; auto. destruct b; reflexivity. Qed.

Lemma firstn_app_skipn {A} (l : list A) : forall k n, firstn (k + n) l = firstn k l ++ firstn n (skipn k l).
Proof. induction l as [|x l IH]; intros [|k] n; cbn; auto; [rewrite firstn_nil; reflexivity|]. f_equal. apply IH. Qed.
