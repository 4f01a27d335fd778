From Coq Require Import QArith.
From Verif Require Import Base Rng.
Local Close Scope Q_scope.
Local Open Scope nat_scope.

Section P.
  Variable R : rng_ops.
  Implicit Types o : wrng R.

  (** the generator the object will use next: everything observable about it *)
  Definition geff (w : nat) o : rng_t R := fst (wrng_force w o).

  Lemma force_eq w o : wrng_force w o = (geff w o, wrng_put (geff w o)).
  Proof. reflexivity. Qed.

  Lemma geff_put w r : geff w (wrng_put r) = r.
  Proof. reflexivity. Qed.

  Lemma geff_restore w (sts : list (option (option (rng_t R)))) r :
    nth_error sts w = Some (Some (Some r)) -> geff w (wrng_restore (Some (wrng_merge sts)) (wrng_init R)) = r.
  Proof.
    intros H. unfold geff, wrng_force, wrng_restore, wrng_init. cbn.
    unfold wrng_merge. rewrite nth_error_map, H. reflexivity.
  Qed.

  Lemma below_eff w n o1 o2 : geff w o1 = geff w o2 -> wrng_below w n o1 = wrng_below w n o2.
  Proof. intros E. unfold wrng_below. rewrite !force_eq, E. reflexivity. Qed.

  Lemma shuffle_eff {A} w (l : list A) o1 o2 : geff w o1 = geff w o2 -> wrng_shuffle w l o1 = wrng_shuffle w l o2.
  Proof. intros E. unfold wrng_shuffle. rewrite !force_eq, E. reflexivity. Qed.

  Lemma choice_eff w ps o1 o2 : geff w o1 = geff w o2 ->
    fst (wrng_choice_idx w ps o1) = fst (wrng_choice_idx w ps o2) /\
    geff w (snd (wrng_choice_idx w ps o1)) = geff w (snd (wrng_choice_idx w ps o2)).
  Proof.
    intros E. unfold wrng_choice_idx. rewrite !force_eq, E.
    destruct ps as [|p [|q ps]]; [|auto|].
    - destruct (rng_mult R [] (geff w o2)); auto.
    - destruct (rng_mult R (p :: q :: ps) (geff w o2)); auto.
  Qed.

  Lemma geff_init w : geff w (wrng_init R) = rng_seed R w.
  Proof. reflexivity. Qed.

  Hypothesis OK : rng_ok R.

  Lemma below_lt w n o : 0 < n -> fst (wrng_below w n o) < n.
  Proof.
    intros H. unfold wrng_below. rewrite force_eq. pose proof (ok_below OK (geff w o) H) as X.
    destruct (rng_below R n (geff w o)); exact X.
  Qed.

  Lemma choice_ok w ps o : (exists p, In p ps /\ (0 < p)%Q) -> (forall p, In p ps -> (0 <= p)%Q) ->
    exists p, nth_error ps (fst (wrng_choice_idx w ps o)) = Some p /\ (0 < p)%Q.
  Proof.
    intros H1 H2. unfold wrng_choice_idx. rewrite force_eq.
    destruct ps as [|p [|q ps]].
    - destruct H1 as (p & [] & _).
    - destruct H1 as (p' & [->|[]] & Hp). exists p'. auto.
    - pose proof (ok_mult OK (geff w o) H1 H2) as X.
      destruct (rng_mult R (p :: q :: ps) (geff w o)); exact X.
  Qed.

  Lemma shuffle_perm {A} w (l : list A) o : Permutation (fst (wrng_shuffle w l o)) l.
  Proof.
    unfold wrng_shuffle. rewrite force_eq. pose proof (ok_perm OK (length l) (geff w o)) as X.
    destruct (rng_perm R (length l) (geff w o)) as [p r]. cbn [fst] in *.
    rewrite (Permutation_flat_map _ X). clear.
    assert (H : forall k (l2 : list A), flat_map (fun i => match nth_error (firstn k l ++ l2) i with Some x => [x] | None => [] end) (seq (length (firstn k l)) (length l2)) = l2).
    { intros k l2. generalize (firstn k l) as p1. clear. intros p1. revert p1; induction l2 as [|x l2 IH]; intros p1; cbn; [reflexivity|].
      rewrite nth_error_app2 by lia. rewrite Nat.sub_diag. cbn [nth_error app]. f_equal.
      specialize (IH (p1 ++ [x])). rewrite app_length in IH. cbn in IH. rewrite Nat.add_1_r in IH.
      rewrite <- app_assoc in IH. cbn in IH. exact IH. }
    specialize (H 0 l). cbn in H. rewrite H. reflexivity.
  Qed.
End P.

Lemma remove_nth_perm {A} (l : list A) i x : nth_error l i = Some x -> Permutation l (x :: remove_nth i l).
Proof.
  intros H. unfold remove_nth. apply nth_error_split in H. destruct H as (l1 & l2 & -> & <-).
  rewrite firstn_app, firstn_all, Nat.sub_diag. cbn [firstn]. rewrite app_nil_r.
  change (S (length l1)) with (1 + length l1). rewrite Nat.add_comm.
  rewrite skipn_app, skipn_all2 by lia. replace (length l1 + 1 - length l1) with 1 by lia. cbn.
  symmetry. apply Permutation_middle.
Qed.

Lemma remove_nth_length {A} (l : list A) i : i < length l -> length (remove_nth i l) = length l - 1.
Proof. intros H. unfold remove_nth. rewrite app_length, firstn_length, skipn_length. lia. Qed.

Lemma lcg_ok : rng_ok lcg.
Proof.
  constructor.
  - intros n r H. cbn. apply Nat.mod_upper_bound. lia.
  - intros ps r (p & Hin & Hp) _. cbn [rng_mult lcg fst]. unfold lcg_mult.
    assert (FP : exists q, nth_error ps (first_pos_any ps) = Some q /\ (0 < q)%Q).
    { revert p Hin Hp. induction ps as [|q ps IH]; intros p Hin Hp; [destruct Hin|]. cbn.
      destruct (Qle_bool q 0) eqn:E.
      - destruct Hin as [->|Hin].
        + apply Qle_bool_iff in E. exfalso. eapply Qlt_not_le; eauto.
        + cbn. eapply IH; eauto.
      - exists q. split; [reflexivity|]. apply Qnot_le_lt. intros X. apply Qle_bool_iff in X. congruence. }
    destruct (nth_error ps (r mod length ps)) as [q|] eqn:E; [|exact FP].
    destruct (Qle_bool q 0) eqn:E2; [exact FP|]. exists q. split; [exact E|].
    apply Qnot_le_lt. intros X. apply Qle_bool_iff in X. congruence.
  - intros n r. cbn. unfold rot_perm. rewrite Permutation_app_comm, firstn_skipn. reflexivity.
Qed.
