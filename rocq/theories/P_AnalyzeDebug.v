(** C58: the debug heatmap of analyze-debug shows exactly what the ranks yielded. *)
From Coq Require Import String.
From Verif Require Import Base AnalyzeDebug AnalyzeSpec AnalyzeProofs.
Local Open Scope string_scope.
Local Open Scope list_scope.
Local Open Scope nat_scope.

(* ---------------- the numbers of the keys ---------------- *)
Lemma existsb_In k l : existsb (String.eqb k) l = true <-> In k l.
Proof.
  rewrite existsb_exists. split.
  - intros [x [H1 H2]]. apply String.eqb_eq in H2 as ->. exact H1.
  - intros H. exists k. split; [exact H | apply String.eqb_refl].
Qed.

Lemma firsts_NoDup : forall l acc, NoDup acc -> NoDup (firsts acc l).
Proof.
  induction l as [|k l IH]; intros acc H; [exact H|]. cbn. apply IH. destruct (existsb (String.eqb k) acc) eqn:E; [exact H|].
  assert (N : ~ In k acc) by (rewrite <- existsb_In, E; discriminate).
  clear E IH. induction acc as [|a acc IHa]; cbn; [constructor; [intros [] | constructor]|].
  inversion H; subst. constructor.
  - rewrite in_app_iff. intros [Hin | [-> | []]]; [contradiction|]. apply N. now left.
  - apply IHa; auto. intros Hin. apply N. now right.
Qed.

Lemma firsts_In k : forall l acc, In k (firsts acc l) <-> In k acc \/ In k l.
Proof.
  induction l as [|k' l IH]; intros acc; cbn; [tauto|]. rewrite IH. destruct (existsb (String.eqb k') acc) eqn:E.
  - apply existsb_In in E. split; [tauto|]. intros [H | [-> | H]]; auto.
  - rewrite in_app_iff. cbn. tauto.
Qed.

(** Every key has exactly one number and every number belongs to a key. *)
Theorem C58_key_numbers : forall keys : list string,
  NoDup (firsts [] keys) /\ (forall k, In k (firsts [] keys) <-> In k keys).
Proof.
  intros keys. split; [apply firsts_NoDup; constructor|]. intros k. rewrite firsts_In. cbn. tauto.
Qed.

(* ---------------- the picture of any points ---------------- *)

(** For an image of even size and any sequence of points (y, x, source) the writer draws the picture of all of them: every pixel
    is the sum of the colours of the points in its square, all points are inside, the image ends with the last point, and it is
    zoomed out by the smallest power of two that makes the points fit.  Resizing loses nothing. *)
Theorem C58_writer : forall (pal : list nat) (csize rows cols : nat) (ps : list (nat * nat * nat)),
  2 <= rows -> 2 <= cols -> Nat.even rows = true -> Nat.even cols = true ->
  exists fuel0, forall fuel, fuel0 <= fuel ->
  exists hm fs fc h w,
    hm_adds pal csize fuel ps (hm_new rows cols) = Some (Ok hm) /\
    hm_image hm = picture (fun src => nth (src mod csize) pal 0) fs fc h w ps /\
    fits rows fs h (map (fun '(y, _, _) => y) ps) /\ fits cols fc w (map (fun '(_, x, _) => x) ps).
Proof.
  intros pal csize rows cols ps R2 C2 Re Ce.
  exists (S (list_sum (map (fun '(y, x, _) => y + x) ps))). intros fuel Hf.
  destruct (@hm_adds_good pal csize rows cols R2 C2 Re Ce ps [] (hm_new rows cols) fuel) as [hm [E G]].
  { apply hm_new_good. }
  { intros y x src Hin. enough (y + x <= list_sum (map (fun '(y, x, _) => y + x) ps)) by lia.
    clear Hf. induction ps as [|p ps IH]; [contradiction|]. unfold list_sum in *. cbn [map fold_right].
    destruct Hin as [-> | Hin]; [lia|]. specialize (IH Hin). destruct p as [[? ?] ?]. lia. }
  exists hm, (hm_fs hm), (hm_fc hm), (hm_rtop hm), (hm_ctop hm). split; [exact E|].
  split; [exact (good_picture G)|]. destruct G as [_ [_ [_ [Ax Ay]]]].
  split; [exact (axis_fits Ax) | exact (axis_fits Ay)].
Qed.

Lemma ls1 x : list_sum [x] = x.
Proof. exact (Nat.add_0_r x). Qed.

Lemma sum_one a f v : forall h, v < h * f -> 0 < f ->
  list_sum (map (fun r => if v / f =? r then a else 0) (seq 0 h)) = a.
Proof.
  intros h Hv Hf. assert (Hq : v / f < h) by (apply Nat.div_lt_upper_bound; lia). clear Hv. revert Hq.
  set (q := v / f). clearbody q. induction h as [|h IH]; intros Hq; [lia|].
  rewrite seq_S, map_app, list_sum_app. cbn [map plus]. rewrite ls1.
  destruct (Nat.eqb_spec q h) as [-> | Hne].
  - enough (E : list_sum (map (fun r => if h =? r then a else 0) (seq 0 h)) = 0) by lia.
    clear IH Hq. assert (G : forall n, n <= h -> list_sum (map (fun r => if h =? r then a else 0) (seq 0 n)) = 0).
    { induction n as [|n IHn]; intros Hn; [reflexivity|]. rewrite seq_S, map_app, list_sum_app, IHn by lia. cbn [map plus]. rewrite ls1.
      destruct (Nat.eqb_spec h n); [lia | reflexivity]. }
    now apply G.
  - rewrite IH by lia. lia.
Qed.

Lemma sum_swap {A B} (f : A -> B -> nat) la lb :
  list_sum (map (fun a => list_sum (map (fun b => f a b) lb)) la) = list_sum (map (fun b => list_sum (map (fun a => f a b) la)) lb).
Proof.
  induction la as [|a la IH].
  - cbn. induction lb as [|b lb IHb]; [reflexivity | exact IHb].
  - unfold list_sum in *. cbn [map fold_right]. rewrite IH.
    change (fold_right Init.Nat.add 0) with list_sum. rewrite <- sum_plus. reflexivity.
Qed.

(** Nothing is lost: the pixels of the picture add up to the colours of all points. *)
Theorem C58_nothing_lost : forall (col : nat -> nat) (rows cols fs fc h w : nat) (ps : list (nat * nat * nat)),
  fits rows fs h (map (fun '(y, _, _) => y) ps) -> fits cols fc w (map (fun '(_, x, _) => x) ps) ->
  list_sum (map list_sum (picture col fs fc h w ps)) = list_sum (map (fun '(_, _, src) => col src) ps).
Proof.
  intros col rows cols fs fc h w ps [[a Ha] [_ [Hy _]]] [[b Hb] [_ [Hx _]]].
  assert (F1 : 0 < fs) by (rewrite Ha; apply pow2_pos). assert (F2 : 0 < fc) by (rewrite Hb; apply pow2_pos).
  unfold picture. rewrite map_map.
  rewrite (map_ext _ (fun r => list_sum (map (fun p => list_sum (map (fun c => hit col fs fc r c p) (seq 0 w))) ps))).
  2: { intros r. rewrite (map_ext _ (fun c => list_sum (map (hit col fs fc r c) ps))) by (intros; now apply pixel_hit).
       rewrite <- sum_swap. reflexivity. }
  rewrite sum_swap. f_equal. apply map_ext_in. intros [[y x] src] Hin.
  rewrite (map_ext _ (fun r => if y / fs =? r then col src else 0)).
  - apply sum_one; [|exact F1]. apply Hy. apply (in_map (fun '(y, _, _) => y)) in Hin. exact Hin.
  - intros r. unfold hit. destruct (y / fs =? r); cbn [andb].
    + apply sum_one; [|exact F2]. apply Hx. apply (in_map (fun '(_, x, _) => x)) in Hin. exact Hin.
    + clear. induction (seq 0 w) as [|c l IH]; [reflexivity | exact IH].
Qed.

(* ---------------- from the logs to the points ---------------- *)
Lemma step_keys_filter sel s : forall ls, step_keys sel s (filter (mine sel) ls) = step_keys sel s ls.
Proof.
  induction ls as [|l ls IH]; [reflexivity|]. cbn [filter step_keys flat_map]. fold (step_keys sel s ls).
  assert (Em : mine sel l = (l_id l =? sel)) by reflexivity. rewrite Em.
  destruct (l_id l =? sel) eqn:E; cbn [andb app].
  - cbn [step_keys flat_map]. fold (step_keys sel s (filter (mine sel) ls)). now rewrite E, IH.
  - exact IH.
Qed.

Lemma step_keys_loader sel : forall bs g s, g <= s -> step_keys sel s (loader_lines sel g bs) = keys_at (s - g) bs.
Proof.
  induction bs as [|b bs IH]; intros g s Hle; cbn [loader_lines step_keys flat_map].
  - unfold keys_at. now destruct (s - g).
  - cbn [l_id l_g l_keys]. rewrite Nat.eqb_refl. cbn [andb]. fold (step_keys sel s (loader_lines sel (S g) bs)).
    destruct (Nat.eqb_spec g s) as [-> | Hne].
    + rewrite Nat.sub_diag. unfold keys_at at 1. cbn [nth_error].
      rewrite step_keys_none; [destruct b; [apply app_nil_r | reflexivity]|].
      intros l Hl _. assert (G : forall bs g, In l (loader_lines sel g bs) -> g <= l_g l).
      { clear. induction bs as [|b bs IH]; intros g H; [contradiction|]. destruct H as [<- | H]; [cbn; lia|]. apply IH in H. lia. }
      apply G in Hl. lia.
    + cbn [app]. rewrite IH by lia. replace (s - g) with (S (s - S g)) by lia. reflexivity.
Qed.

Lemma ascending_filter sel : forall ls i, ascending sel i (filter (mine sel) ls) -> ascending sel i ls.
Proof.
  induction ls as [|l ls IH]; intros i H; [exact I|]. cbn [filter ascending] in *.
  assert (Em : mine sel l = (l_id l =? sel)) by reflexivity. rewrite Em in H.
  destruct (l_id l =? sel) eqn:E; [|now apply IH]. cbn [ascending] in H. rewrite E in H. destruct H. auto.
Qed.

Lemma ascending_loader sel : forall bs g, ascending sel g (loader_lines sel g bs).
Proof.
  induction bs as [|b bs IH]; intros g; [exact I|]. cbn. rewrite Nat.eqb_refl. split; [lia|].
  eapply ascending_weaken; [|apply IH]. lia.
Qed.

Lemma loader_bound sel l : forall bs g, In l (loader_lines sel g bs) -> l_g l < g + List.length bs.
Proof. induction bs as [|b bs IH]; intros g H; [contradiction|]. cbn. destruct H as [<- | H]; [cbn; lia|]. apply IH in H. lia. Qed.

Lemma number_in {A} : forall (l : list A) s i x, In (i, x) (number s l) -> s <= i /\ nth_error l (i - s) = Some x.
Proof.
  induction l as [|a l IH]; intros s i x H; [contradiction|]. destruct H as [E | H].
  - injection E as -> ->. split; [lia|]. now rewrite Nat.sub_diag.
  - apply IH in H as [H1 H2]. split; [lia|]. replace (i - s) with (S (i - S s)) by lia. exact H2.
Qed.

Lemma number_map {A B} (f : A -> B) : forall l s, number s (map f l) = map (fun '(i, x) => (i, f x)) (number s l).
Proof. induction l as [|a l IH]; intros s; [reflexivity|]. cbn. now rewrite IH. Qed.

(** the log of a rank: its lines of the selected loader are those of the batches *)
Definition logs (sel : nat) (f : list line) (bs : list (option (list string))) : Prop :=
  filter (fun l => l_id l =? sel) f = loader_lines sel 0 bs.

Lemma at_step_shown sel s step : forall files batches, Forall2 (logs sel) files batches -> forall i,
  at_step sel s step (number i files) =
  flat_map (fun j => map (fun k => (k, step, j)) (keys_at s (nth (j - i) batches []))) (seq i (List.length batches)).
Proof.
  intros files batches H. induction H as [|f bs files batches Hf HF IH]; intros i; [reflexivity|].
  cbn [number at_step flat_map List.length seq]. fold (at_step sel s step (number (S i) files)). rewrite Nat.sub_diag. cbn [nth]. f_equal.
  - rewrite <- step_keys_filter. change (filter (mine sel) f) with (filter (fun l => l_id l =? sel) f). rewrite Hf.
    rewrite step_keys_loader by lia. now rewrite Nat.sub_0_r.
  - rewrite IH, !flat_map_concat_map. f_equal. apply map_ext_in. intros j Hj. apply in_seq in Hj.
    replace (j - i) with (S (j - S i)) by lia. reflexivity.
Qed.

(** What the tool reads: for every rank, step and key one point, at the step at which the rank yielded the key, with one row per
    key, in the order of first appearance. *)
Theorem C58_points : forall (sel steps : nat) (files : list (list line)) (batches : list (list (option (list string)))),
  Forall2 (logs sel) files batches ->
  (forall bs, In bs batches -> List.length bs <= steps) ->
  exists fuel0, forall fuel, fuel0 <= fuel ->
  exists ps n,
    let ids := firsts [] (map (fun '(k, _, _) => k) (shown steps batches)) in
    read_logs fuel 0 sel files = Some (Ok (ps, ids, n)) /\
    Forall2 (numbered ids) (shown steps batches) ps.
Proof.
  intros sel steps files batches HF Hlen. exists (S steps). intros fuel Hfuel.
  destruct (@all_steps_ok sel steps 0 0 (number 0 files) [] fuel) as [ps [ix [n [E [X [F _]]]]]].
  - intros i ls Hin. apply number_in in Hin as [_ Hn]. rewrite Nat.sub_0_r in Hn. apply ascending_filter.
    clear - HF Hn. revert i Hn. induction HF as [|f bs fs bss Hf HF IH]; intros i Hn; [now destruct i|].
    destruct i; [|eapply IH; eauto]. injection Hn as <-. change (mine sel) with (fun l => l_id l =? sel). rewrite Hf.
    apply ascending_loader.
  - intros i ls l Hin Hl Hid. apply number_in in Hin as [_ Hn]. rewrite Nat.sub_0_r in Hn.
    assert (Hb : exists bs, In bs batches /\ filter (fun l => l_id l =? sel) ls = loader_lines sel 0 bs).
    { clear - HF Hn. revert i Hn. induction HF as [|f bs fs bss Hf HF IH]; intros i Hn; [now destruct i|].
      destruct i; [injection Hn as <-; exists bs; split; [now left | exact Hf]|].
      destruct (IH _ Hn) as [bs' [H1 H2]]. exists bs'. split; [now right | exact H2]. }
    destruct Hb as [bs [Hb1 Hb2]]. assert (Hl2 : In l (loader_lines sel 0 bs)).
    { rewrite <- Hb2. apply filter_In. split; [exact Hl | now apply Nat.eqb_eq]. }
    apply loader_bound in Hl2. specialize (Hlen _ Hb1). lia.
  - lia.
  - assert (Es : seen sel 0 0 steps (number 0 files) = shown steps batches).
    { unfold seen, shown. apply flat_map_ext. intros s. rewrite !Nat.add_0_l, (at_step_shown s s HF 0).
      apply flat_map_ext. intros j. now rewrite Nat.sub_0_r. }
    rewrite Es in X, F. cbn zeta. exists ps, n.
    replace (map (fun '(k, _, _) => k) (shown steps batches)) with (map key_of (shown steps batches)) by reflexivity.
    rewrite <- X. split; [|exact F]. unfold read_logs. rewrite number_map. exact E.
Qed.

(** The whole tool: the heatmap of the logs of all ranks is the picture of everything the ranks yielded. *)
Theorem C58_heatmap : forall (pal : list nat) (csize rows cols sel steps : nat) (files : list (list line))
    (batches : list (list (option (list string)))),
  2 <= rows -> 2 <= cols -> Nat.even rows = true -> Nat.even cols = true ->
  Forall2 (logs sel) files batches ->
  (forall bs, In bs batches -> List.length bs <= steps) ->
  exists ps fs fc h w,
    Forall2 (numbered (firsts [] (map (fun '(k, _, _) => k) (shown steps batches)))) (shown steps batches) ps /\
    fits rows fs h (map (fun '(y, _, _) => y) ps) /\ fits cols fc w (map (fun '(_, x, _) => x) ps) /\
    exists fuel0, forall fuel, fuel0 <= fuel ->
      analyze pal csize fuel 0 rows cols sel files = Some (Ok (picture (fun src => nth (src mod csize) pal 0) fs fc h w ps)).
Proof.
  intros pal csize rows cols sel steps files batches R2 C2 Re Ce HF Hlen.
  destruct (C58_points HF Hlen) as [f1 H1].
  set (ids := firsts [] (map (fun '(k, _, _) => k) (shown steps batches))) in *.
  destruct (H1 f1 (Nat.le_refl _)) as [ps [n [E1 F1]]]. fold ids in E1, F1.
  assert (Hps : forall fuel, f1 <= fuel -> exists n, read_logs fuel 0 sel files = Some (Ok (ps, ids, n))).
  { intros fuel Hf. destruct (H1 fuel Hf) as [ps' [n' [E' F']]]. fold ids in E', F'. exists n'. rewrite E'. do 3 f_equal. f_equal.
    assert (Nd : NoDup ids) by (apply firsts_NoDup; constructor).
    clear - F1 F' Nd. clearbody ids. revert ps F1. induction F' as [|e p l l' Hp F' IH]; intros ps F1; inversion F1; subst; [reflexivity|].
    f_equal; [|now apply IH]. destruct e as [[k s] i], p as [[y1 s1] i1], y as [[y2 s2] i2].
    destruct Hp as [A [-> ->]]. match goal with H : numbered _ _ _ |- _ => destruct H as [B [-> ->]] end.
    f_equal. f_equal. eapply NoDup_nth_error; [exact Nd | | congruence]. apply nth_error_Some. congruence. }
  destruct (@C58_writer pal csize rows cols ps R2 C2 Re Ce) as [f2 H2].
  destruct (H2 f2 (Nat.le_refl _)) as [hm0 [fs [fc [h [w [E2 [P2 [X2 Y2]]]]]]]].
  exists ps, fs, fc, h, w. split; [exact F1|]. split; [exact X2|]. split; [exact Y2|].
  exists (Nat.max f1 f2). intros fuel Hf. unfold analyze.
  destruct (Hps fuel ltac:(lia)) as [n' ->].
  assert (Mono : forall fuel' ps0 h0 r, fuel' <= fuel -> hm_adds pal csize fuel' ps0 h0 = Some r -> hm_adds pal csize fuel ps0 h0 = Some r).
  { clear. assert (G1 : forall a b id h r, a <= b -> grow_rows a id h = Some r -> grow_rows b id h = Some r).
    { induction a as [|a IH]; intros b id h r Hab E; destruct b as [|b]; cbn [grow_rows] in *; try lia; destruct (_ <=? _); auto; try discriminate.
      destruct (halve_rows h); [|exact E]. apply IH; [lia | exact E]. }
    assert (G2 : forall a b id h r, a <= b -> grow_cols a id h = Some r -> grow_cols b id h = Some r).
    { induction a as [|a IH]; intros b id h r Hab E; destruct b as [|b]; cbn [grow_cols] in *; try lia; destruct (_ <=? _); auto; try discriminate.
      destruct (halve_cols h); [|exact E]. apply IH; [lia | exact E]. }
    intros fuel' ps0. induction ps0 as [|[[id x] src] ps0 IH]; intros h0 r Hle E; [exact E|]. cbn [hm_adds hm_add] in *.
    destruct (grow_rows fuel' id h0) as [[h1|e]|] eqn:Q1; [|rewrite (G1 _ _ _ _ _ Hle Q1); exact E | discriminate].
    rewrite (G1 _ _ _ _ _ Hle Q1).
    destruct (grow_cols fuel' x h1) as [[h2|e]|] eqn:Q2; [|rewrite (G2 _ _ _ _ _ Hle Q2); exact E | discriminate].
    rewrite (G2 _ _ _ _ _ Hle Q2). now apply IH. }
  rewrite (Mono f2 _ _ _ ltac:(lia) E2). now rewrite P2.
Qed.

(* ---------------- what does not work ---------------- *)

(** --skip: the logs of a loader start with step 0, so every skip > 0 ends the tool with an AssertionError. *)
Theorem C58_skip_refuted : forall (pal : list nat) (csize rows cols sel skip fuel : nat) (f : list line) (files : list (list line)) b bs,
  0 < skip -> logs sel f (b :: bs) -> 0 < fuel ->
  analyze pal csize fuel skip rows cols sel (f :: files) = Some (Err AssertionError).
Proof.
  intros pal csize rows cols sel skip fuel f files b bs Hs Hf Hfuel. unfold analyze, read_logs.
  destruct fuel as [|fuel]; [lia|]. cbn [map number all_steps one_step].
  rewrite <- (log_entries_filter sel f skip). change (filter (mine sel) f) with (filter (fun l => l_id l =? sel) f). rewrite Hf.
  cbn [loader_lines log_entries l_id l_g]. rewrite Nat.eqb_refl. destruct (Nat.ltb_spec 0 skip); [reflexivity | lia].
Qed.

(** An odd number of rows (at least 3): the first point beyond the image raises ValueError. *)
Theorem C58_odd_size_refuted : forall (pal : list nat) (csize rows cols fuel id x src : nat),
  3 <= rows -> Nat.even rows = false -> rows <= id -> 0 < fuel ->
  hm_add pal csize fuel (id, x, src) (hm_new rows cols) = Some (Err ValueError).
Proof.
  intros pal csize rows cols fuel id x src H3 Ho Hid Hf. destruct fuel as [|fuel]; [lia|].
  cbn [hm_add grow_rows hm_new hm_rows hm_fs]. destruct (Nat.leb_spec (rows * 1) id); [|lia].
  unfold halve_rows. cbv zeta. cbn [hm_rows hm_new]. rewrite Ho. destruct (Nat.eqb_spec rows 1); [lia | reflexivity].
Qed.

(** One row: every resize forgets the picture, and the points drawn so far are lost. *)
Theorem C58_one_row_refuted :
  exists hm, hm_adds [1] 1 10 [(0, 0, 0); (1, 0, 0)] (hm_new 1 2) = Some (Ok hm) /\ hm_image hm = [[1]].
Proof. eexists. split; [reflexivity | reflexivity]. Qed.

(** No row: the first add never returns. *)
Theorem C58_no_row_refuted : forall (pal : list nat) (csize cols fuel id x src : nat),
  hm_add pal csize fuel (id, x, src) (hm_new 0 cols) = None.
Proof.
  intros. unfold hm_add. assert (G : forall h, hm_rows h = 0 -> grow_rows fuel id h = None).
  { induction fuel as [|fuel IH]; intros h Hh; cbn [grow_rows]; rewrite Hh; cbn [Nat.mul Nat.leb]; [reflexivity|].
    unfold halve_rows. cbv zeta. rewrite Hh. cbn [Nat.even]. apply IH. reflexivity. }
  now rewrite G.
Qed.

(** The loading order (--force-loading-order, or logs without batch keys): as soon as a log holds one sample at or after the
    skipped steps, the tool does not succeed (heatmap.add is called without its third argument). *)
Definition holds_keys (it : item) : bool := match it with Keys (_ :: _) => true | Fail _ => true | _ => false end.

Lemma sl_entries_holds start : forall lines count n k, In (n, k) lines -> start <= n -> existsb holds_keys (sl_entries start count lines) = true.
Proof.
  induction lines as [|[m k'] lines IH]; intros count n k Hin Hn; [contradiction|]. cbn [sl_entries].
  destruct (Nat.ltb_spec m start) as [Hlt | Hge].
  - destruct Hin as [E | Hin]; [injection E as -> ->; lia|]. eapply IH; eauto.
  - destruct (m <? count); [reflexivity|]. rewrite existsb_app. cbn [existsb holds_keys]. now rewrite Bool.orb_true_r.
Qed.

Lemma drain_holds : forall its rest, drain its = Ok ([], rest) -> existsb holds_keys its = true ->
  exists r, rest = Some r /\ existsb holds_keys r = true.
Proof.
  induction its as [|it its IH]; intros rest E H; [discriminate|]. destruct it as [ks| |e]; cbn in E.
  - destruct (drain its) as [[ks' r']|] eqn:Ed; [|discriminate]. injection E as E1 E2. apply app_eq_nil in E1 as [-> ->]. subst r'.
    cbn in H. now apply IH.
  - injection E as <-. exists its. split; [reflexivity | exact H].
  - discriminate.
Qed.

Theorem C58_loading_order_refuted : forall (fuel skip : nat) (files : list (list (nat * string))) f n k,
  In f files -> In (n, k) f -> skip <= n ->
  loading_order fuel skip files <> Some (Ok tt).
Proof.
  intros fuel skip files f n k Hf Hn Hs. unfold loading_order.
  assert (H : exists i its, In (i, its) (number 0 (map (sl_entries skip skip) files)) /\ existsb holds_keys its = true).
  { assert (G : forall fs s, In f fs -> exists i, In (i, sl_entries skip skip f) (number s (map (sl_entries skip skip) fs))).
    { induction fs as [|g fs IH]; intros s Hin; [contradiction|]. destruct Hin as [-> | Hin]; [exists s; now left|].
      destruct (IH (S s) Hin) as [i Hi]. exists i. now right. }
    destruct (G files 0 Hf) as [i Hi]. exists i, (sl_entries skip skip f). split; [exact Hi|]. eapply sl_entries_holds; eauto. }
  revert H. generalize (number 0 (map (sl_entries skip skip) files)).
  assert (Hstep : forall iters iters', sl_step iters = Ok iters' ->
    (exists i its, In (i, its) iters /\ existsb holds_keys its = true) -> (exists i its, In (i, its) iters' /\ existsb holds_keys its = true)).
  { induction iters as [|[i its] iters IH]; intros iters' E [j [its' [Hin Hh]]]; [contradiction|]. cbn [sl_step] in E.
    destruct (drain its) as [[ks rest]|] eqn:Ed; cbn [bind] in E; [|discriminate]. destruct ks; [|discriminate].
    destruct (sl_step iters) as [more'|] eqn:Em; cbn [bind] in E; [|discriminate]. injection E as <-.
    destruct Hin as [Ei | Hin].
    - injection Ei as -> ->. destruct (drain_holds Ed Hh) as [r [-> Hr]]. exists j, r. split; [now left | exact Hr].
    - destruct (IH _ eq_refl (ex_intro _ j (ex_intro _ its' (conj Hin Hh)))) as [i2 [its2 [H1 H2]]].
      exists i2, its2. split; [|exact H2]. destruct rest; [now right | exact H1]. }
  induction fuel as [|fuel IH]; intros iters H.
  - destruct iters; [destruct H as [? [? [[] _]]]|]. discriminate.
  - destruct iters as [|p iters]; [destruct H as [? [? [[] _]]]|]. cbn [sl_steps].
    destruct (sl_step (p :: iters)) as [iters'|e] eqn:E; [|discriminate]. apply IH. eapply Hstep; eauto.
Qed.

(* ---------------- which loader ---------------- *)

(** The modality and the path that the tool shows for a loader are those of the first dataset of the pipeline; if that is a joined
    dataset, reading the log fails. *)
Lemma leads_both p l : leads p l ->
  (forall t q, l = Web t q -> find_modality (config p) = Ok t /\ find_path (config p) = Ok q) /\
  (forall t qs, l = Joined t qs -> find_modality (config p) = Ok t /\ find_path (config p) = Err AssertionError).
Proof.
  induction 1; split; intros ? ? E; try discriminate; try (injection E as -> ->; split; reflexivity);
    destruct IHleads as [I1 I2]; (destruct (I1 _ _ E) as [A B] || destruct (I2 _ _ E) as [A B]); cbn; auto.
Qed.

Theorem C58_loader_info : forall p t q, leads p (Web t q) -> loader_info p = Ok (t, q).
Proof. intros p t q H. destruct (leads_both H) as [G _]. destruct (G t q eq_refl) as [A B]. unfold loader_info. now rewrite A, B. Qed.

Theorem C58_joined_refuted : forall p t qs, leads p (Joined t qs) -> loader_info p = Err AssertionError.
Proof. intros p t q H. destruct (leads_both H) as [_ G]. destruct (G t q eq_refl) as [A B]. unfold loader_info. now rewrite A, B. Qed.

(** Turning the debug log on makes the construction of the loader fail if a cooker has a condition, at any depth. *)
Theorem C58_condition_refuted : forall p lvl, 1 <= lvl -> (loader_init lvl p = Err TypeError <-> has_function p = true) /\ loader_init 0 p = Ok tt.
Proof.
  intros p lvl H. unfold loader_init. destruct (Nat.leb_spec 1 lvl); [|lia]. split; [|reflexivity].
  destruct (has_function p); split; intros; congruence.
Qed.

(* ---------------- the log files ---------------- *)

(** Every rank's main process and every worker of every rank has its own log file number. *)
Theorem C58_log_numbers : forall nw r w r' w',
  (forall i, w = Some i -> i < nw) -> (forall i, w' = Some i -> i < nw) ->
  log_number nw r w = log_number nw r' w' -> r = r' /\ w = w'.
Proof.
  intros nw r w r' w' Hw Hw' E. unfold log_number in E.
  destruct w as [i|], w' as [i'|].
  - pose proof (Hw i eq_refl). pose proof (Hw' i' eq_refl). assert (r = r') by (assert (r = r' \/ r < r' \/ r' < r) as [| [|]] by lia; nia). subst. split; [reflexivity|]. f_equal. lia.
  - pose proof (Hw i eq_refl). exfalso. assert (r = r' \/ r < r' \/ r' < r) as [-> | [|]] by lia; nia.
  - pose proof (Hw' i' eq_refl). exfalso. assert (r = r' \/ r < r' \/ r' < r) as [-> | [|]] by lia; nia.
  - assert (r = r') by nia. subst. auto.
Qed.

(** If every process keeps its own number, its file holds everything it logged, in order, whatever the other processes do in
    between. *)
Theorem C58_log_files : forall (num : nat -> nat) (calls : list (nat * string)) (old : nat -> list string),
  (forall p q, num p = num q -> p = q) ->
  forall p t, In (p, t) calls ->
  write_logs (fun _ => None) old (map (fun '(p, t) => (p, num p, t)) calls) (num p) =
  map snd (filter (fun '(q, _) => q =? p) calls).
Proof.
  intros num calls old Hinj p t Hin.
  assert (G : forall calls curs files, (forall q, curs q = None \/ curs q = Some (num q)) ->
    (exists t, In (p, t) calls) \/ curs p = Some (num p) ->
    write_logs curs files (map (fun '(p, t) => (p, num p, t)) calls) (num p) =
    (if match curs p with Some _ => true | None => false end then files (num p) else []) ++ map snd (filter (fun '(q, _) => q =? p) calls)).
  { clear calls old Hin t. induction calls as [|[q u] calls IH]; intros curs files Hc Hex.
    - destruct Hex as [[t []] | E]. rewrite E. cbn. now rewrite app_nil_r.
    - cbn [map write_logs write_log filter]. rewrite IH.
      + destruct (Nat.eqb_spec q p) as [-> | Hne].
        * rewrite !Nat.eqb_refl. cbn [map snd]. destruct (Hc p) as [E | E]; rewrite E; [|rewrite Nat.eqb_refl]; rewrite <- ?app_assoc; reflexivity.
        * destruct (Nat.eqb_spec p q); [congruence|]. destruct (Nat.eqb_spec (num p) (num q)) as [E|]; [apply Hinj in E; congruence|]. reflexivity.
      + intros q'. destruct (Nat.eqb_spec q' q) as [-> | Hne]; [now right | apply Hc].
      + destruct (Nat.eqb_spec p q) as [-> | Hne]; [now right|]. destruct Hex as [[t [E | Hin]] | E]; [congruence | left; eauto | now right]. }
  rewrite G; [reflexivity | intros; now left | left; eauto].
Qed.

(** Two processes with the same number (the workers of a training and of a validation loader of the same rank, when the path
    contains {worker_id} but not {pid}): the file of the first is emptied when the second begins. *)
Theorem C58_shared_file_refuted : forall (n : nat) (before after : list string) (old : nat -> list string) t,
  write_logs (fun _ => None) old (map (fun u => (0, n, u)) before ++ map (fun u => (1, n, u)) (t :: after)) n = t :: after.
Proof.
  intros n before after old t.
  assert (H1 : forall l curs files pre, curs 1 = Some n -> files n = pre -> write_logs curs files (map (fun u => (1, n, u)) l) n = pre ++ l).
  { induction l as [|u l IH]; intros curs files pre Hc Hf; [now rewrite app_nil_r|]. cbn [map write_logs write_log].
    rewrite Hc, Nat.eqb_refl. erewrite IH with (pre := pre ++ [u]); [now rewrite <- app_assoc | reflexivity |]. now rewrite Nat.eqb_refl, Hf. }
  assert (H2 : forall l curs files, curs 1 = None -> exists curs' files', curs' 1 = None /\
     forall rest, write_logs curs files (map (fun u => (0, n, u)) l ++ rest) = write_logs curs' files' rest).
  { induction l as [|u l IH]; intros curs files Hc; [exists curs, files; auto|]. cbn [map app write_logs write_log].
    edestruct IH as [c' [f' [Hc' Hr]]]; [|exists c', f'; split; [exact Hc' | exact Hr]]. cbn. exact Hc. }
  destruct (H2 before (fun _ => None) old eq_refl) as [c' [f' [Hc' Hr]]]. rewrite Hr. cbn [map write_logs write_log]. rewrite Hc'.
  erewrite H1 with (pre := [t]); [reflexivity | reflexivity |]. now rewrite Nat.eqb_refl.
Qed.

(* ---------------- examples ---------------- *)

(** Two ranks, two steps, a key yielded twice, an unrelated loader (id 9) in the first log, and a 2 x 2 image: three keys, so the
    rows are zoomed by 2. *)
Example C58_example :
  Forall2 (logs 3)
    [[mkL 3 0 (Some ["a"; "b"]); mkL 9 0 (Some ["z"]); mkL 3 1 (Some ["c"])]; [mkL 3 0 (Some ["b"]); mkL 3 1 None]]
    [[Some ["a"; "b"]; Some ["c"]]; [Some ["b"]; None]] /\
  shown 2 [[Some ["a"; "b"]; Some ["c"]]; [Some ["b"]; None]] = [("a", 0, 0); ("b", 0, 0); ("b", 0, 1); ("c", 1, 0)] /\
  analyze [1; 10] 2 5 0 2 2 3
    [[mkL 3 0 (Some ["a"; "b"]); mkL 9 0 (Some ["z"]); mkL 3 1 (Some ["c"])]; [mkL 3 0 (Some ["b"]); mkL 3 1 None]]
  = Some (Ok [[12; 0]; [0; 1]]).
Proof. split; [repeat constructor|]. split; reflexivity. Qed.

Example C58_example_info : leads (Logged (Wrapped (Blended [Cooked true (Wrapped (Web true "/data"))]))) (Web true "/data") /\
  has_function (Logged (Wrapped (Blended [Cooked true (Wrapped (Web true "/data"))]))) = true.
Proof. split; [repeat constructor | reflexivity]. Qed.

Example C58_example_files : (forall p q, log_number 2 0 (Some p) = log_number 2 0 (Some q) -> p = q) /\
  write_logs (fun _ => None) (fun _ => ["stale"]) (map (fun '(p, t) => (p, log_number 2 0 (Some p), t)) [(0, "x"); (1, "y"); (0, "z")]) 1 = ["x"; "z"].
Proof. split; [unfold log_number; intros; lia | reflexivity]. Qed.
