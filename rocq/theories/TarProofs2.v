From Coq Require Import String Ascii.
From Verif Require Import Base Files FilesProofs Tar TarSpec TarProofs.
Local Open Scope list_scope.
Local Open Scope nat_scope.

Section Sub.
  Context {Dat : Type}.
  Variables (ms : list (member Dat)) (excl pfilter : string -> bool) (sh : shard).
  Hypothesis Hsize : forall m, In m ms -> 0 < m_size m.
  Hypothesis Htotal : (Z.of_nat (tar_size ms) < 2 ^ 64)%Z.
  Hypothesis Hsub : sh_offset sh + sh_count sh <= length (archive_samples ms).

  Notation E := (entries (locate 0 ms)).
  Notation G := (archive_samples ms).

  Lemma E_asc : asc 0 E.
  Proof. apply locate_entries_asc. exact Hsize. Qed.

  Lemma first_off_le g : In g G -> first_off g < tar_size ms \/ g = [].
  Proof.
    intros H. destruct g as [|e g]; [auto|]. left. cbn.
    assert (In e E). { rewrite <- (runs_concat E). apply in_concat. exists (e :: g). split; [exact H|left; auto]. }
    apply entries_bound in H0; auto. cbn in H0. lia.
  Qed.

  Lemma G_nonnil g : In g G -> g <> [].
  Proof.
    intros H. unfold archive_samples in H. pose proof (runs_wg E) as W.
    induction W as [|e g' G' H1 H2 H3 IH]; [destruct H|]. destruct H as [<-|H]; [discriminate|auto].
  Qed.

  Lemma index_nth i : i <= length G ->
    nth_error (index_of ms) i = Some (match nth_error G i with Some g => first_off g | None => tar_size ms end).
  Proof.
    intros Hi. rewrite index_of_runs. destruct (nth_error G i) as [g|] eqn:EN.
    - rewrite nth_error_app1 by (rewrite map_length; apply nth_error_Some; congruence). apply nth_error_map_some. exact EN.
    - apply nth_error_None in EN. rewrite nth_error_app2 by (rewrite map_length; lia). rewrite map_length.
      replace (i - length G) with 0 by lia. reflexivity.
  Qed.

  Lemma itar_off i : i <= length G ->
    itar_byte_offset (index_file ms) i =
    Ok (Z.of_nat (if i =? 0 then 0 else match nth_error G i with Some g => first_off g | None => tar_size ms end)).
  Proof.
    intros Hi. unfold itar_byte_offset. destruct (i =? 0) eqn:E0; [reflexivity|].
    unfold index_file. rewrite index_get_pack.
    - destruct (0 <=? Z.of_nat i)%Z eqn:EZ; [|lia]. rewrite Nat2Z.id.
      rewrite (nth_error_map_some Z.of_nat (index_nth Hi)). reflexivity.
    - intros x Hx. apply in_map_iff in Hx. destruct Hx as (y & <- & Hy). rewrite index_of_runs in Hy.
      apply in_app_or in Hy. destruct Hy as [Hy|[<-|[]]]; [|lia]. apply in_map_iff in Hy. destruct Hy as (g & <- & Hg).
      destruct (first_off_le Hg) as [L|L]; [lia|]. subst g. apply G_nonnil in Hg. congruence.
  Qed.

  Definition b0 := if sh_offset sh =? 0 then 0 else match nth_error G (sh_offset sh) with Some g => first_off g | None => tar_size ms end.
  Definition b1 := if sh_offset sh + sh_count sh =? 0 then 0
                   else match nth_error G (sh_offset sh + sh_count sh) with Some g => first_off g | None => tar_size ms end.
  Definition bs := b1 - b0.

  Lemma sh_bytes_ok : sh_bytes (index_file ms) sh = Ok (b0, bs).
  Proof.
    unfold sh_bytes. rewrite !itar_off by lia. cbn [bind]. rewrite !Nat2Z.id. reflexivity.
  Qed.

  (** the entries of the sub-shard *)
  Definition sub : list (ent Dat) := concat (firstn (sh_count sh) (skipn (sh_offset sh) G)).

  Lemma runs_sub : runs sub = firstn (sh_count sh) (skipn (sh_offset sh) G).
  Proof. apply wg_runs. apply wg_firstn, wg_skipn. apply runs_wg. Qed.

  Lemma runs_sub_length : length (runs sub) = sh_count sh.
  Proof. rewrite runs_sub, firstn_length, skipn_length. lia. Qed.

  Lemma filter_filter {A} (f g : A -> bool) l : filter (fun x => f x && g x) l = filter g (filter f l).
  Proof. induction l as [|x l IH]; [reflexivity|]. cbn. destruct (f x); cbn; [destruct (g x)|]; rewrite IH; reflexivity. Qed.

  Lemma lower_cut : filter (fun e => b0 <=? en_off e) E = concat (skipn (sh_offset sh) G).
  Proof.
    unfold b0. destruct (sh_offset sh =? 0) eqn:E0.
    - assert (sh_offset sh = 0) as -> by lia. rewrite filter_first_zero. cbn. symmetry. apply runs_concat.
    - destruct (nth_error G (sh_offset sh)) as [g|] eqn:EN.
      + apply (filter_runs_from E_asc EN).
      + apply nth_error_None in EN. rewrite skipn_all2 by lia. apply filter_none.
        intros e I. apply entries_bound in I; auto. lia.
  Qed.

  Lemma sub_asc : asc 0 (concat (skipn (sh_offset sh) G)).
  Proof.
    pose proof E_asc as A. rewrite <- (runs_concat E), (concat_split (runs E) (sh_offset sh)) in A. apply asc_app in A. apply A.
  Qed.

  Lemma sub_asc' : asc 0 sub.
  Proof.
    pose proof sub_asc as A. rewrite (concat_split _ (sh_count sh)) in A. apply asc_app in A. apply A.
  Qed.

  Lemma upper_cut : filter (fun e => en_off e <? b1) (concat (skipn (sh_offset sh) G)) = sub.
  Proof.
    unfold b1, sub. destruct (sh_offset sh + sh_count sh =? 0) eqn:E0.
    - assert (sh_count sh = 0) as -> by lia. cbn. apply filter_none. intros; lia.
    - destruct (nth_error G (sh_offset sh + sh_count sh)) as [g|] eqn:EN.
      + assert (R : runs (concat (skipn (sh_offset sh) G)) = skipn (sh_offset sh) G) by (apply wg_runs, wg_skipn, runs_wg).
        assert (EN' : nth_error (runs (concat (skipn (sh_offset sh) G))) (sh_count sh) = Some g).
        { rewrite R. rewrite <- EN. clear. generalize (sh_offset sh) as k. generalize (sh_count sh) as c. generalize G as L.
          induction L as [|x L IH]; intros c [|k]; cbn; auto; try (destruct c; reflexivity). }
        rewrite <- R at 2. apply (filter_runs_from sub_asc EN').
      + apply nth_error_None in EN. rewrite (firstn_all2 (skipn (sh_offset sh) G)) by (rewrite skipn_length; lia).
        apply filter_all. intros e I.
        assert (In e E).
        { rewrite <- (runs_concat E), (concat_split (runs E) (sh_offset sh)). apply in_or_app. right. exact I. }
        apply entries_bound in H; auto. cbn in H. apply Nat.ltb_lt. lia.
  Qed.

  Lemma sub_in e : In e sub -> b0 <= en_off e < b1.
  Proof.
    intros I. rewrite <- upper_cut in I. apply filter_In in I. destruct I as [I L]. rewrite <- lower_cut in I.
    apply filter_In in I. destruct I as [_ I]. lia.
  Qed.

  (** a window inside the sub-shard *)
  Lemma window_sub boff : boff <= bs ->
    entries (open_window ms (b0 + boff) (bs - boff)) =
    map (shift (b0 + boff)) (filter (fun e => b0 + boff <=? en_off e) sub).
  Proof.
    intros HB. rewrite window_entries. f_equal. unfold bs in *.
    destruct (le_lt_dec b1 b0) as [L|L].
    - rewrite (filter_none (l := E)); [symmetry; apply filter_none|].
      + intros e I. apply sub_in in I. lia.
      + intros e I. lia.
    - rewrite <- upper_cut, <- lower_cut. rewrite <- !filter_filter.
      apply filter_ext. intros e. lia.
  Qed.

  Definition L : list (ent Dat) := live excl sh sub.

  Lemma live_asc lo (l : list (ent Dat)) : asc lo l -> asc lo (live excl sh l).
  Proof.
    induction 1 as [|lo e l H1 H2 IH]; cbn; [constructor|]. destruct (negb _); [constructor; auto|].
    eapply asc_le; [exact IH|lia].
  Qed.

  Lemma filter_comm {A} (f g : A -> bool) l : filter f (filter g l) = filter g (filter f l).
  Proof. rewrite <- !filter_filter. apply filter_ext. intros. apply andb_comm. Qed.

  Definition Inv (j boff : nat) : Prop :=
    boff <= bs /\ j <= length (runs L) /\ filter (fun e => b0 + boff <=? en_off e) L = concat (skipn j (runs L)).

  Lemma Inv_init : Inv 0 0.
  Proof.
    split; [lia|]. split; [lia|]. cbn [skipn]. rewrite runs_concat. apply filter_all. intros e I.
    unfold L, live in I. apply filter_In in I. destruct I as [I _]. apply sub_in in I. lia.
  Qed.

  Lemma L_count : length (runs L) <= sh_count sh.
  Proof. rewrite <- runs_sub_length. apply live_count. Qed.

  Lemma L_in e : In e L -> b0 <= en_off e < b1.
  Proof. unfold L, live. intros I. apply filter_In in I. destruct I as [I _]. apply sub_in. exact I. Qed.

  Lemma open_pend j boff : Inv j boff -> exists r, rd_open ms (index_file ms) sh j boff = Ok r /\
    r_off r = j /\ r_boff r = boff /\
    pend excl sh r = map (shift (b0 + boff)) (concat (skipn j (runs L))).
  Proof.
    intros (H1 & H2 & H3). unfold rd_open. destruct (j =? sh_count sh) eqn:EJ.
    - eexists. split; [reflexivity|]. split; [reflexivity|]. split; [reflexivity|].
      pose proof L_count. rewrite skipn_all2 by lia. reflexivity.
    - rewrite sh_bytes_ok. cbn [bind]. destruct (bs <? boff) eqn:EA; [lia|].
      destruct (boff <? bs) eqn:EB.
      + eexists. split; [reflexivity|]. split; [reflexivity|]. split; [reflexivity|].
        unfold pend. cbn [r_cur r_stream]. rewrite window_sub by exact H1. rewrite live_map by reflexivity. f_equal.
        rewrite <- H3. unfold L, live. apply filter_comm.
      + eexists. split; [reflexivity|]. split; [reflexivity|]. split; [reflexivity|].
        rewrite <- H3. rewrite filter_none; [reflexivity|]. intros e I. apply L_in in I. unfold bs in *. lia.
  Qed.

  Lemma Inv_next j boff n : Inv j boff -> 0 < n -> j < length (runs L) ->
    Inv (Nat.min (j + n) (length (runs L)))
        (left_at boff bs (map (shift (b0 + boff)) (concat (skipn n (skipn j (runs L)))))).
  Proof.
    intros (H1 & H2 & H3) Hn Hj. rewrite <- skipn_add.
    destruct (nth_error (runs L) (j + n)) as [g|] eqn:EN.
    - assert (j + n < length (runs L)) by (apply nth_error_Some; congruence).
      rewrite Nat.min_l by lia. rewrite (skipn_cons_nth EN). cbn [concat].
      assert (exists e g', g = e :: g') as (e & g' & ->).
      { pose proof (wg_skipn (j + n) (runs_wg L)) as W. rewrite (skipn_cons_nth EN) in W. inversion W; subst. eauto. }
      cbn [app map left_at shift en_off].
      assert (IE : In e L).
      { rewrite <- (runs_concat L), (concat_split (runs L) (j + n)). apply in_or_app. right. rewrite (skipn_cons_nth EN).
        cbn. left. reflexivity. }
      assert (IF : b0 + boff <= en_off e).
      { assert (I2 : In e (filter (fun e => b0 + boff <=? en_off e) L)).
        { rewrite H3. rewrite (concat_split (skipn j (runs L)) n), <- skipn_add, (skipn_cons_nth EN). apply in_or_app. right. left. reflexivity. }
        apply filter_In in I2. destruct I2. lia. }
      apply L_in in IE. unfold Inv, bs in *. split; [lia|]. split; [lia|].
      replace (b0 + (en_off e - (b0 + boff) + boff)) with (first_off (e :: g')) by (cbn; lia).
      apply (filter_runs_from (live_asc sub_asc') EN).
    - apply nth_error_None in EN. rewrite Nat.min_r by lia. rewrite (skipn_all2 (runs L)) by lia. cbn [concat map left_at].
      split; [lia|]. split; [lia|]. rewrite skipn_all2 by lia. cbn. apply filter_none. intros e I. apply L_in in I. unfold bs in *. lia.
  Qed.

  Lemma read_from_spec j boff n : Inv j boff -> exists boff',
    read_from ms (index_file ms) excl pfilter sh j boff n =
      Ok (number (fun i g => expected (sh_name sh) pfilter (i + sh_offset sh) g) j (firstn n (skipn j (runs L))),
          (Nat.min (j + n) (length (runs L)), boff')) /\
    Inv (Nat.min (j + n) (length (runs L))) boff'.
  Proof.
    intros HI. destruct (open_pend HI) as (r & EO & HO1 & HO2 & HP). unfold read_from. rewrite EO. cbn [bind].
    rewrite sh_bytes_ok. cbn [bind].
    assert (RP : runs (pend excl sh r) = map (map (shift (b0 + boff))) (skipn j (runs L))).
    { rewrite HP, runs_map by reflexivity. f_equal. apply wg_runs, wg_skipn, runs_wg. }
    destruct HI as (H1 & H2 & H3).
    assert (HB : forall e, In e (pend excl sh r) -> en_off e + boff <= bs).
    { intros e I. rewrite HP in I. apply in_map_iff in I. destruct I as (e' & <- & I). rewrite <- H3 in I.
      apply filter_In in I. destruct I as [I F]. apply L_in in I. unfold bs in *. cbn. lia. }
    destruct (read_upto_spec pfilter n HB H1) as (r' & -> & A2 & A3). cbn [bind].
    rewrite RP in *. rewrite map_length, skipn_length in A2, A3.
    exists (r_boff r'). rewrite HO1 in *. rewrite A2.
    replace (j + Nat.min n (length (runs L) - j)) with (Nat.min (j + n) (length (runs L))) by lia. split.
    - rewrite firstn_map, number_map. do 2 f_equal. apply number_ext. intros i x. apply expected_shift.
    - rewrite A3. destruct ((n =? 0) || (length (runs L) - j =? 0)) eqn:EN.
      + rewrite HO2. replace (Nat.min (j + n) (length (runs L))) with j by lia. split; [|split]; auto.
      + rewrite skipn_map, <- concat_map. apply Inv_next; [split; [|split]; auto|lia|lia].
  Qed.
End Sub.
