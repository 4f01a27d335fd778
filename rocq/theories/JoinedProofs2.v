From Coq Require Import String.
From Verif Require Import Base Files FilesProofs Dataset Tar TarSpec TarProofs TarProofs2 Joined JoinedSpec JoinedProofs SharderSpec.
From Verif Require Sharder.
Local Open Scope list_scope.
Local Open Scope nat_scope.


Lemma nth_error_number {A B} (f : nat -> A -> B) l : forall i j,
  nth_error (number f i l) j = option_map (f (i + j)) (nth_error l j).
Proof.
  induction l as [|x l IH]; intros i [|j]; cbn; try reflexivity.
  - rewrite Nat.add_0_r. reflexivity.
  - rewrite IH. do 2 f_equal. lia.
Qed.
Lemma number_length {A B} (f : nat -> A -> B) l : forall i, length (number f i l) = length l.
Proof. induction l; intros; cbn; auto. Qed.
Lemma nth_error_skipn {A} (l : list A) o : forall i, nth_error (skipn o l) i = nth_error l (o + i).
Proof. revert o; induction l as [|x l IH]; intros [|o] i; cbn; auto. destruct i; reflexivity. Qed.
Lemma nth_error_firstn {A} (l : list A) c : forall i, nth_error (firstn c l) i = if i <? c then nth_error l i else None.
Proof.
  revert c; induction l as [|x l IH]; intros [|c] [|i]; cbn [firstn nth_error]; try reflexivity.
  - destruct (_ <? _); reflexivity.
  - rewrite IH. replace (S i <? S c) with (i <? c) by reflexivity. reflexivity.
Qed.

Lemma nth_error_ext {A} (a b : list A) : (forall i, nth_error a i = nth_error b i) -> a = b.
Proof.
  revert b; induction a as [|x a IH]; intros [|y b] H; auto.
  - specialize (H 0). discriminate.
  - specialize (H 0). discriminate.
  - pose proof (H 0) as H0. cbn in H0. injection H0 as ->. f_equal. apply IH. intros i. exact (H (S i)).
Qed.

Section Content.
  Context {Dat : Type} (pfilter : string -> bool).

  Lemma col_samples_runs (c : column Dat) : col_ok c ->
    col_samples none pfilter c =
    number (fun i g => (base_of g, expected (sh_name (c_sh c)) pfilter (i + sh_offset (c_sh c)) g)) 0
      (firstn (sh_count (c_sh c)) (skipn (sh_offset (c_sh c)) (archive_samples (c_ms c)))).
  Proof.
    intros _. unfold col_samples. f_equal. unfold none. cbn [negb].
    rewrite filter_all by reflexivity. unfold slice.
    replace (sh_offset (c_sh c) + sh_count (c_sh c) - sh_offset (c_sh c)) with (sh_count (c_sh c)) by lia.
    apply wg_runs. apply wg_firstn, wg_skipn. apply runs_wg.
  Qed.

  Lemma count_of_runs (ms : list (member Dat)) : count_of ms = length (archive_samples ms).
  Proof. unfold count_of. rewrite index_of_runs, app_length, map_length. cbn. lia. Qed.

  Lemma col_samples_length (c : column Dat) : col_ok c -> length (col_samples none pfilter c) = sh_count (c_sh c).
  Proof.
    intros H. rewrite col_samples_runs by exact H. rewrite number_length, firstn_length, skipn_length.
    destruct H as (_ & _ & _ & H). rewrite count_of_runs in H. lia.
  Qed.

  Lemma col_samples_nth (c : column Dat) i : col_ok c -> nth_error (col_samples none pfilter c) i =
    if i <? sh_count (c_sh c) then
      option_map (fun g => (base_of g, expected (sh_name (c_sh c)) pfilter (i + sh_offset (c_sh c)) g))
        (nth_error (archive_samples (c_ms c)) (sh_offset (c_sh c) + i))
    else None.
  Proof.
    intros H. rewrite col_samples_runs by exact H. rewrite nth_error_number, nth_error_firstn, nth_error_skipn. cbn [Nat.add].
    destruct (i <? sh_count (c_sh c)); reflexivity.
  Qed.

  (** reading all rows of columns that fit together *)
  Lemma mc_read_all (cs : list (column Dat)) n : cs <> [] -> Forall col_ok cs ->
    (forall c, In c cs -> sh_count (c_sh c) = n) -> (forall i, i < n -> matching none pfilter cs i) ->
    exists rows, mc_read none pfilter false cs (map (fun _ => (0, 0)) cs) (S n) = (rows, McStop) /\ length rows = n /\
      forall i row, nth_error rows i = Some row -> row_at none pfilter cs i row.
  Proof.
    intros Hne HC Hn HM. destruct (@mc_read_spec Dat none pfilter cs (S n) Hne HC) as (rows & e & E & Ln & A & B).
    exists rows. assert (L1 : length rows <= n).
    { destruct (le_lt_dec (length rows) n) as [|C]; auto. exfalso.
      destruct (nth_error rows n) as [row|] eqn:Er; [|apply nth_error_None in Er; lia].
      destruct (A n row Er) as [(k & M) _]. destruct cs as [|c cs]; [congruence|].
      destruct (M c (or_introl eq_refl)) as (s & Es).
      assert (X : n < length (col_samples none pfilter c)) by (apply nth_error_Some; congruence).
      rewrite col_samples_length in X by (inversion HC; auto). rewrite (Hn c (or_introl eq_refl)) in X. lia. }
    assert (LL : forall c, In c cs -> length (col_samples none pfilter c) = n).
    { intros c Ic. rewrite col_samples_length by (rewrite Forall_forall in HC; auto). auto. }
    destruct e.
    - lia.
    - split; [exact E|]. split.
      + destruct cs as [|c cs]; [congruence|]. rewrite <- (B c (or_introl eq_refl)). apply LL. left. reflexivity.
      + intros i row Hr. apply A. exact Hr.
    - exfalso. destruct B as [B1 B2]. destruct (Nat.eq_dec (length rows) n) as [En|En].
      + apply B2. intros c Ic. rewrite En. apply LL. exact Ic.
      + apply B1. apply HM. lia.
  Qed.

  (** reading the one-sample sub-shards at position [i] of the columns *)
  Definition at_pos (i : nat) (c : column Dat) : column Dat :=
    mkCol (c_ms c) (c_idx c) (mkShard (sh_name (c_sh c)) (sh_offset (c_sh c) + i) 1).

  Lemma at_pos_ok i c : col_ok c -> i < sh_count (c_sh c) -> col_ok (at_pos i c).
  Proof. intros (H1 & H2 & H3 & H4) Hi. unfold col_ok, at_pos. cbn [c_ms c_idx c_sh sh_offset sh_count]. repeat split; auto. lia. Qed.

  Lemma at_pos_nth i c : col_ok c -> i < sh_count (c_sh c) ->
    nth_error (col_samples none pfilter (at_pos i c)) 0 = nth_error (col_samples none pfilter c) i.
  Proof.
    intros H Hi. rewrite !col_samples_nth by (auto using at_pos_ok). unfold at_pos. cbn [c_sh c_ms sh_count sh_offset sh_name].
    replace (i <? sh_count (c_sh c)) with true by (symmetry; apply Nat.ltb_lt; exact Hi). cbn [Nat.ltb Nat.leb].
    rewrite Nat.add_0_r. destruct (nth_error _ _); [|reflexivity]. cbn. do 3 f_equal. lia.
  Qed.

  Lemma mc_read_one (cs : list (column Dat)) i row : cs <> [] -> Forall col_ok cs ->
    matching none pfilter cs i -> row_at none pfilter cs i row ->
    exists e, mc_read none pfilter false (map (at_pos i) cs) (map (fun _ => (0, 0)) (map (at_pos i) cs)) 1 = ([row], e).
  Proof.
    intros Hne HC (k & HM) HR.
    assert (Hi : forall c, In c cs -> i < sh_count (c_sh c)).
    { intros c Ic. destruct (HM c Ic) as (s & Es). rewrite <- col_samples_length by (rewrite Forall_forall in HC; auto).
      apply nth_error_Some. congruence. }
    assert (HC' : Forall col_ok (map (at_pos i) cs)).
    { apply Forall_forall. intros c Ic. apply in_map_iff in Ic. destruct Ic as (c' & <- & Ic).
      apply at_pos_ok; auto. rewrite Forall_forall in HC; auto. }
    assert (Hne' : map (at_pos i) cs <> []) by (destruct cs; [congruence|discriminate]).
    destruct (@mc_read_spec Dat none pfilter (map (at_pos i) cs) 1 Hne' HC') as (rows & e & E & Ln & A & B).
    exists e. rewrite E. f_equal.
    assert (M0 : matching none pfilter (map (at_pos i) cs) 0).
    { exists k. intros c Ic. apply in_map_iff in Ic. destruct Ic as (c' & <- & Ic).
      rewrite at_pos_nth; auto. rewrite Forall_forall in HC; auto. }
    assert (L1 : length rows = 1).
    { destruct rows as [|r [|r' rows]]; [exfalso|reflexivity|cbn in Ln; lia]. cbn [length] in B. destruct e.
      - lia.
      - destruct cs as [|c cs]; [congruence|]. specialize (B _ (or_introl eq_refl)).
        rewrite col_samples_length in B by (inversion HC'; auto). cbn in B. lia.
      - destruct B as [B _]. auto. }
    destruct rows as [|r [|r' rows]]; try discriminate. f_equal.
    destruct (A 0 r eq_refl) as [_ R0]. unfold row_at in *. clear -HR R0 HC Hi. revert r row HR R0.
    induction cs as [|c cs IH]; intros r row HR R0; cbn [map] in R0;
      inversion HR as [|? ? ? ? Q1 Q2]; subst; inversion R0 as [|? ? ? ? Q3 Q4]; subst; [reflexivity|].
    f_equal.
    - destruct Q1 as (k1 & s1 & E1 & ->). destruct Q3 as (k2 & s2 & E2 & ->).
      rewrite at_pos_nth in E2; [|inversion HC; auto|apply Hi; left; reflexivity]. congruence.
    - apply IH; auto; [inversion HC; auto|]. intros c' I'. apply Hi. right. exact I'.
  Qed.

  (** ** the datasets' files *)
  Variable F : files Dat.

  Notation seq_ok := (seq_ok F).
  Notation keys_match := (keys_match pfilter F).
  Lemma tar_content_rows s : seq_ok s ->
    exists rows, tar_content F pfilter s = map (fun r => mkS r (row_key r)) rows /\
      forall i row, nth_error rows i = Some row ->
        matching none pfilter (map (col_of F) (Sharder.columns s)) i /\
        row_at none pfilter (map (col_of F) (Sharder.columns s)) i row.
  Proof.
    intros H. unfold tar_content. unfold JoinedSpec.seq_ok in H.
    destruct (@mc_read_spec Dat none pfilter (map (col_of F) (Sharder.columns s)) (S (Z.to_nat (Sharder.count0 s)))) as (rows & e & E & Ln & A & B).
    - discriminate.
    - apply Forall_map. exact H.
    - rewrite map_map in E. unfold none in E. rewrite E. exists rows. split; [reflexivity|exact A].
  Qed.

  Notation tar_cell := (tar_cell pfilter F).
  Notation tar_row := (tar_row pfilter F).

  Lemma cell_nth sh i : col_ok (col_of F sh) -> (0 <= Sharder.sh_offset sh)%Z -> i < Z.to_nat (Sharder.sh_count sh) ->
    option_map snd (nth_error (col_samples none pfilter (col_of F sh)) i)
    = tar_cell (Sharder.sh_name sh, (Sharder.sh_offset sh + Z.of_nat i)%Z).
  Proof.
    intros H Ho Hi. rewrite col_samples_nth by exact H. unfold col_of, JoinedSpec.tar_cell. cbn [c_sh c_ms sh_count sh_offset sh_name fst snd].
    replace (i <? Z.to_nat (Sharder.sh_count sh)) with true by (symmetry; apply Nat.ltb_lt; exact Hi).
    rewrite Z2Nat.inj_add, Nat2Z.id by lia. destruct (nth_error _ _); [|reflexivity]. cbn. do 2 f_equal. lia.
  Qed.

  Lemma tar_content_full s : seq_ok s -> keys_match s -> aligned s -> (0 <= Sharder.offset0 s)%Z ->
    tar_content F pfilter s = map tar_row (rows s).
  Proof.
    intros HS HM HA HO. unfold tar_content.
    destruct (@mc_read_all (map (col_of F) (Sharder.columns s)) (Z.to_nat (Sharder.count0 s))) as (rws & E & L & A).
    - discriminate.
    - apply Forall_map. exact HS.
    - intros c Ic. apply in_map_iff in Ic. destruct Ic as (sh & <- & Ic). unfold col_of. cbn [c_sh sh_count].
      unfold aligned in HA. rewrite Forall_forall in HA. rewrite (proj2 (HA sh Ic)). reflexivity.
    - exact HM.
    - rewrite map_map in E. unfold none in E. rewrite E. cbn [fst]. unfold JoinedSpec.tar_row.
      assert (ER : rws = map (map tar_cell) (rows s)).
      { apply nth_error_ext. intros i. unfold rows. rewrite map_map.
        destruct (nth_error rws i) as [row|] eqn:Er.
        - assert (Hi : i < Z.to_nat (Sharder.count0 s)) by (rewrite <- L; apply nth_error_Some; congruence).
          rewrite (@nth_error_map_some _ _ _ (seq 0 (Z.to_nat (Sharder.count0 s))) i i).
          2:{ rewrite (nth_error_nth' _ 0) by (rewrite seq_length; exact Hi). rewrite seq_nth by exact Hi. reflexivity. }
          f_equal. specialize (A i row Er). rewrite map_map. unfold row_at in A.
          assert (HA' : Forall (fun sh => (0 <= Sharder.sh_offset sh)%Z /\ i < Z.to_nat (Sharder.sh_count sh)) (Sharder.columns s)).
          { eapply Forall_impl; [|exact HA]. intros sh [X Y]. rewrite X, Y. auto. }
          unfold JoinedSpec.seq_ok in HS. clear -A HS HA'. revert row A. induction (Sharder.columns s) as [|sh l IH]; intros row A; cbn [map] in *.
          + inversion A; reflexivity.
          + inversion A; subst. inversion HS; subst. inversion HA'; subst. f_equal; [|apply IH; auto].
            destruct H1 as (k & sm & E1 & ->). rewrite <- cell_nth; [|auto|lia|lia]. rewrite E1. reflexivity.
        - symmetry. apply nth_error_None. rewrite map_length, seq_length. apply nth_error_None in Er. lia. }
      rewrite ER, map_map. reflexivity.
  Qed.

  (** ** restoring by key *)
  Variable shards : list (list Sharder.shseq).
  Hypothesis HF : Forall (Forall seq_ok) shards.
  (** sub-shards whose first files have the same name consist of the same files *)
  Hypothesis HN : forall s t, In s (concat shards) -> In t (concat shards) ->
    d_name F (Sharder.sh_name (fst s)) = d_name F (Sharder.sh_name (fst t)) ->
    map Sharder.sh_name (Sharder.columns s) = map Sharder.sh_name (Sharder.columns t).

  Lemma one_sample_cols_ok i shs row : Forall (fun sh => col_ok (col_of F sh)) shs ->
    row_at none pfilter (map (col_of F) shs) i row ->
    one_sample_cols F (map Sharder.sh_name shs) (tl (row_key row)) = Some (map (at_pos i) (map (col_of F) shs)).
  Proof.
    unfold row_key, row_at. cbn [tl]. revert row. induction shs as [|sh shs IH]; intros row HC A; cbn [map] in *; inversion A; subst.
    - reflexivity.
    - destruct H1 as (k & sm & E1 & ->). inversion HC; subst. cbn [flat_map app one_sample_cols].
      rewrite (IH l') by auto. do 2 f_equal. rewrite col_samples_nth in E1 by auto.
      destruct (i <? _); [|discriminate]. destruct (nth_error _ _); [|discriminate]. cbn in E1. injection E1 as _ <-.
      unfold at_pos, col_of. cbn. do 2 f_equal. lia.
  Qed.

  Lemma tar_restores s k a w : In s (concat shards) -> nth_error (tar_content F pfilter s) k = Some a ->
    tar_restore F pfilter shards w (rk a) = Ok a.
  Proof.
    intros Hs Ha.
    assert (HSs : seq_ok s).
    { apply in_concat in Hs. destruct Hs as (l & Hl & Hs). exact (proj1 (Forall_forall _ _) (proj1 (Forall_forall _ _) HF l Hl) s Hs). }
    destruct (tar_content_rows HSs) as (rws & E & A). rewrite E in Ha.
    destruct (nth_error rws k) as [row|] eqn:Er.
    2:{ apply nth_error_None in Er. assert (nth_error (map (fun r => mkS r (row_key r)) rws) k = None) by (apply nth_error_None; rewrite map_length; exact Er). congruence. }
    rewrite (nth_error_map_some _ Er) in Ha. injection Ha as <-. cbn [rk].
    destruct (A k row Er) as [M R].
    assert (ON := @one_sample_cols_ok k (Sharder.columns s) row HSs R).
    assert (FN : exists sm rest, row = Some sm :: rest /\ fst (rs_rk sm) = d_name F (Sharder.sh_name (fst s))).
    { unfold row_at in R. unfold Sharder.columns in R. cbn [map] in R. inversion R; subst. destruct H1 as (kk & sm & E1 & ->).
      exists sm, l'. split; [reflexivity|]. rewrite col_samples_nth in E1 by (inversion HSs; auto).
      destruct (k <? _) in E1; [|discriminate].
      destruct (nth_error (archive_samples _) _) as [gg|] in E1; [|discriminate]. cbn [option_map] in E1. injection E1 as _ <-. reflexivity. }
    destruct FN as (sm & rest & Erow & En).
    assert (KD : row_key row = AStr "Webdataset" :: AStr (fst (rs_rk sm)) :: tl (tl (row_key row))) by (rewrite Erow; reflexivity).
    assert (KD2 : tl (row_key row) = AStr (fst (rs_rk sm)) :: tl (tl (row_key row))) by (rewrite KD at 1; reflexivity).
    unfold tar_restore. rewrite KD. rewrite String.eqb_refl.
    unfold path_map. rewrite En.
    destruct (find (fun t => seqb (d_name F (Sharder.sh_name (fst t))) (d_name F (Sharder.sh_name (fst s)))) (rev (concat shards))) as [t|] eqn:Ft.
    2:{ exfalso. pose proof (find_none _ _ Ft s) as C. cbn beta in C. rewrite seqb_refl in C.
        discriminate C. apply in_rev. rewrite rev_involutive. exact Hs. }
    apply find_some in Ft. destruct Ft as [It Et]. apply in_rev in It. apply seqb_eq in Et.
    rewrite (HN It Hs Et). rewrite <- En, <- KD2, ON.
    destruct (@mc_read_one (map (col_of F) (Sharder.columns s)) k row) as (e & Em); auto.
    - discriminate.
    - apply Forall_map. exact HSs.
    - unfold none in Em. rewrite Em. first [reflexivity | rewrite KD; reflexivity | idtac].
  Qed.
End Content.
