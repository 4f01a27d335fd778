(** C16 joined datasets are read row by row. *)
From Coq Require Import String Ascii.
From Verif Require Import Base Files Dataset Tar TarSpec TarProofs Joined JoinedSpec JoinedProofs JoinedProofs2.
From Verif Require Sharder.
Local Open Scope list_scope.
Local Open Scope nat_scope.

Lemma nth_fst {A B} (l : list (A * B)) i : nth_error (map fst l) i = option_map fst (nth_error l i).
Proof. revert i; induction l as [|x l IH]; intros [|i]; cbn; auto. Qed.

(** Reading joined columns to the end, with the default error handler: row i is the tuple of the columns'
    samples at position i, and all of these have the same key.  Reading ends normally if and only if
    all columns have the same sequence of keys (so then the rows are all the samples); otherwise it
    ends with an error exactly at the first position where a key differs or a column is shorter. *)
Theorem C16_joined_rows {Dat} excl pfilter (cs : list (column Dat)) n :
  cs <> [] -> Forall col_ok cs ->
  (forall c, In c cs -> length (col_samples excl pfilter c) < n) ->
  exists rows e, mc_read excl pfilter false cs (map (fun _ => (0, 0)) cs) n = (rows, e) /\
    (forall i row, nth_error rows i = Some row -> matching excl pfilter cs i /\ row_at excl pfilter cs i row) /\
    (e = McStop <-> forall c c', In c cs -> In c' cs ->
       map fst (col_samples excl pfilter c) = map fst (col_samples excl pfilter c')) /\
    (e = McStop -> forall c, In c cs -> length rows = length (col_samples excl pfilter c)) /\
    (e <> McStop -> (exists x, e = McFail x) /\ ~ matching excl pfilter cs (length rows) /\
                    exists c, In c cs /\ length rows < length (col_samples excl pfilter c)).
Proof.
  intros Hne HC Hn. destruct (@mc_read_spec Dat excl pfilter cs n Hne HC) as (rows & e & E & Ln & A & B).
  assert (B0 : forall c, In c cs -> length rows <= length (col_samples excl pfilter c)).
  { intros c Ic. destruct (le_lt_dec (length rows) (length (col_samples excl pfilter c))) as [|C]; auto. exfalso.
    destruct (nth_error rows (length (col_samples excl pfilter c))) as [row|] eqn:Er; [|apply nth_error_None in Er; lia].
    destruct (A _ row Er) as [(k & M) _]. destruct (M c Ic) as (s & Es).
    assert (X : nth_error (col_samples excl pfilter c) (length (col_samples excl pfilter c)) = None) by (apply nth_error_None; lia).
    congruence. }
  assert (EM : e <> McMore).
  { intros ->. destruct cs as [|c cs]; [congruence|]. specialize (Hn c (or_introl eq_refl)). specialize (B0 c (or_introl eq_refl)). lia. }
  exists rows, e. split; [exact E|]. split; [exact A|].
  assert (S1 : e = McStop <-> forall c c', In c cs -> In c' cs ->
       map fst (col_samples excl pfilter c) = map fst (col_samples excl pfilter c')).
  { split.
    - intros ->. intros c c' Ic Ic'. apply nth_error_ext. intros i. rewrite !nth_fst.
      destruct (nth_error rows i) as [row|] eqn:Er.
      + destruct (A i row Er) as [(k & M) _]. destruct (M c Ic) as (s & ->). destruct (M c' Ic') as (s' & ->). reflexivity.
      + apply nth_error_None in Er.
        assert (X : forall c, In c cs -> nth_error (col_samples excl pfilter c) i = None).
        { intros d Id. apply nth_error_None. rewrite (B d Id). exact Er. }
        rewrite (X c Ic), (X c' Ic'). reflexivity.
    - intros HS. destruct e as [| |x]; [congruence|reflexivity|]. exfalso. destruct B as [B1 B2].
      destruct cs as [|c0 cs]; [congruence|].
      assert (EL : forall c, In c (c0 :: cs) -> length (col_samples excl pfilter c) = length (col_samples excl pfilter c0)).
      { intros c Ic. rewrite <- (map_length fst), (HS c c0 Ic (or_introl eq_refl)). apply map_length. }
      destruct (nth_error (col_samples excl pfilter c0) (length rows)) as [[k s]|] eqn:E0.
      + apply B1. exists k. intros c Ic.
        pose proof (f_equal (fun l => nth_error l (length rows)) (HS c c0 Ic (or_introl eq_refl))) as X. cbn beta in X.
        rewrite !nth_fst, E0 in X. destruct (nth_error (col_samples excl pfilter c) (length rows)) as [[k' s']|]; [|discriminate].
        cbn in X. injection X as ->. eauto.
      + apply B2. intros c Ic. rewrite (EL c Ic). apply nth_error_None in E0. specialize (B0 c0 (or_introl eq_refl)). lia. }
  split; [exact S1|]. split.
  - intros ->. intros c Ic. symmetry. exact (B c Ic).
  - intros NS. destruct e as [| |x]; [congruence|congruence|]. split; [eauto|]. destruct B as [B1 B2]. split; [exact B1|].
    assert (D : (exists c, In c cs /\ length rows < length (col_samples excl pfilter c)) \/
                (forall c, In c cs -> length (col_samples excl pfilter c) = length rows)).
    { clear - B0. induction cs as [|c cs IH]; [right; intros c []|].
      destruct (le_lt_dec (length (col_samples excl pfilter c)) (length rows)) as [LE|LT].
      - destruct IH as [(d & Id & Ld)|H]; [intros d Id; apply B0; right; exact Id| |].
        + left. exists d. split; [right; exact Id|exact Ld].
        + right. intros d [<-|Id]; [|auto]. specialize (B0 c (or_introl eq_refl)). lia.
      - left. exists c. split; [left; reflexivity|exact LT]. }
    destruct D as [D|D]; [exact D|contradiction].
Qed.
Print Assumptions C16_joined_rows.

(** Non-vacuity: two columns with the same keys, and two with a different second key. *)
Definition jx_a : list (member nat) := [mkM "a.jpg"%string true 2 11; mkM "b.jpg"%string true 3 12].
Definition jx_b : list (member nat) := [mkM "a.txt"%string true 1 21; mkM "b.txt"%string true 1 22].
Definition jx_c : list (member nat) := [mkM "a.txt"%string true 1 31; mkM "c.txt"%string true 1 32].
Definition jx_col (n : string) (ms : list (member nat)) : column nat := mkCol ms (index_file ms) (mkShard n 0 2).
Example jx_ok : Forall col_ok [jx_col "A" jx_a; jx_col "B" jx_b; jx_col "C" jx_c].
Proof.
  repeat constructor; try (vm_compute; reflexivity); try (vm_compute; lia);
    intros m [<-|[<-|[]]]; cbn; lia.
Qed.
Example jx_same : mc_read (fun _ => false) (fun _ => true) false [jx_col "A" jx_a; jx_col "B" jx_b] [(0, 0); (0, 0)] 3 =
  ([[Some (mkRSam "A/a" ("A"%string, 0) [("jpg"%string, 11)]); Some (mkRSam "B/a" ("B"%string, 0) [("txt"%string, 21)])];
    [Some (mkRSam "A/b" ("A"%string, 1) [("jpg"%string, 12)]); Some (mkRSam "B/b" ("B"%string, 1) [("txt"%string, 22)])]], McStop).
Proof. vm_compute. reflexivity. Qed.
Example jx_differ : mc_read (fun _ => false) (fun _ => true) false [jx_col "A" jx_a; jx_col "C" jx_c] [(0, 0); (0, 0)] 3 =
  ([[Some (mkRSam "A/a" ("A"%string, 0) [("jpg"%string, 11)]); Some (mkRSam "C/a" ("C"%string, 0) [("txt"%string, 31)])]], McFail OtherError).
Proof. vm_compute. reflexivity. Qed.

(** With an error handler that only logs, a key mismatch is not an error: the row is yielded with the
    other column's sample of an earlier row, i.e. silently misaligned. *)
Theorem C16_logging_handler_refuted :
  exists (cs : list (column nat)) rows e row, Forall col_ok cs /\
    mc_read (fun _ => false) (fun _ => true) true cs (map (fun _ => (0, 0)) cs) 3 = (rows, e) /\
    nth_error rows 1 = Some row /\ ~ matching (fun _ => false) (fun _ => true) cs 1 /\
    map (option_map rs_key) row = [Some "A/b"%string; Some "C/a"%string].
Proof.
  exists [jx_col "A" jx_a; jx_col "C" jx_c]. eexists _, _, _. split; [|split; [vm_compute; reflexivity|split; [reflexivity|split]]].
  - pose proof jx_ok as H. inversion H as [|? ? ? H']; subst. inversion H'; subst. constructor; auto.
  - intros (k & M). destruct (M (jx_col "A" jx_a)) as (s & E); [left; reflexivity|].
    destruct (M (jx_col "C" jx_c)) as (s' & E'); [right; left; reflexivity|].
    vm_compute in E, E'. injection E as <- _. discriminate.
  - vm_compute. reflexivity.
Qed.
Print Assumptions C16_logging_handler_refuted.
