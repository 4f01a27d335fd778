(** Proofs about the debug heatmap (C58). *)
From Coq Require Import String.
From Verif Require Import Base AnalyzeDebug AnalyzeSpec.
Local Open Scope list_scope.
Local Open Scope nat_scope.

Ltac splits := repeat match goal with |- _ /\ _ => split end.

(* ---------------- pixels by division ---------------- *)
Lemma in_square f r y : 0 < f -> (r * f <=? y) && (y <? (r + 1) * f) = (y / f =? r).
Proof.
  intros Hf. pose proof (Nat.div_mod y f ltac:(lia)) as E. pose proof (Nat.mod_upper_bound y f ltac:(lia)) as B.
  destruct (Nat.eqb_spec (y / f) r) as [<- | N].
  - rewrite Bool.andb_true_iff, Nat.leb_le, Nat.ltb_lt. nia.
  - apply Bool.andb_false_iff. rewrite Nat.leb_gt, Nat.ltb_ge.
    destruct (Nat.lt_ge_cases (y / f) r); [left | right]; nia.
Qed.

Definition hit (col : nat -> nat) (fs fc r c : nat) (p : nat * nat * nat) : nat :=
  let '(y, x, src) := p in if (y / fs =? r) && (x / fc =? c) then col src else 0.

Lemma pixel_hit col fs fc r c ps : 0 < fs -> 0 < fc -> pixel col fs fc r c ps = list_sum (map (hit col fs fc r c) ps).
Proof.
  intros H1 H2. unfold pixel. f_equal. apply map_ext. intros [[y x] src]. unfold hit.
  rewrite <- (in_square r y H1), <- (in_square c x H2), !Bool.andb_assoc. reflexivity.
Qed.

Lemma sum_plus {A} (f g : A -> nat) l : list_sum (map (fun x => f x + g x) l) = list_sum (map f l) + list_sum (map g l).
Proof. induction l as [|x l IH]; [reflexivity|]. unfold list_sum in *. cbn [map fold_right]. lia. Qed.

Lemma hit_rows col fs fc r c p : 0 < fs -> hit col (fs * 2) fc r c p = hit col fs fc (2 * r) c p + hit col fs fc (2 * r + 1) c p.
Proof.
  intros Hf. destruct p as [[y x] src]. unfold hit. rewrite <- Nat.div_div by lia. set (q := y / fs).
  pose proof (Nat.div_mod q 2 ltac:(lia)) as E. pose proof (Nat.mod_upper_bound q 2 ltac:(lia)) as B.
  destruct (Nat.eqb_spec (q / 2) r), (Nat.eqb_spec q (2 * r)), (Nat.eqb_spec q (2 * r + 1)), (x / fc =? c); cbn [andb]; lia.
Qed.

Lemma hit_cols col fs fc r c p : 0 < fc -> hit col fs (fc * 2) r c p = hit col fs fc r (2 * c) p + hit col fs fc r (2 * c + 1) p.
Proof.
  intros Hf. destruct p as [[y x] src]. unfold hit. rewrite <- Nat.div_div by lia. set (q := x / fc).
  pose proof (Nat.div_mod q 2 ltac:(lia)) as E. pose proof (Nat.mod_upper_bound q 2 ltac:(lia)) as B.
  destruct (Nat.eqb_spec (q / 2) c), (Nat.eqb_spec q (2 * c)), (Nat.eqb_spec q (2 * c + 1)), (y / fs =? r); cbn [andb]; lia.
Qed.

Lemma hits_none col fs fc r c ps :
  (forall p, In p ps -> hit col fs fc r c p = 0) -> list_sum (map (hit col fs fc r c) ps) = 0.
Proof. induction ps as [|p ps IH]; intros H; [reflexivity|]. unfold list_sum in *. cbn [map fold_right]. rewrite (H p (or_introl eq_refl)). apply IH. intros q Hq. apply H. now right. Qed.

(* ---------------- the invariant ---------------- *)
Definition ys (ps : list (nat * nat * nat)) := map (fun '(y, _, _) => y) ps.
Definition xs (ps : list (nat * nat * nat)) := map (fun '(_, x, _) => x) ps.

Definition axis (size f top : nat) (vs : list nat) : Prop :=
  (exists k, f = 2 ^ k) /\ (forall v, In v vs -> v < size * f) /\ (forall v, In v vs -> v / f < top) /\
  (top = 0 \/ exists v, In v vs /\ top - 1 <= v / f) /\
  (f = 1 \/ exists v, In v vs /\ size * (f / 2) <= v).

(** the axis just after a resize, before the point that caused it is stored *)
Definition widened (size f top : nat) (vs : list nat) (v0 : nat) : Prop :=
  (exists k, f = 2 ^ k) /\ (forall v, In v vs -> v < size * f) /\
  ((top = 1 /\ (forall v, In v vs -> v / f < size / 2) /\ size * (f / 2) <= v0 /\ 2 <= f) \/
   ((forall v, In v vs -> v / f < top) /\ (top = 0 \/ exists v, In v vs /\ top - 1 <= v / f) /\
    (f = 1 \/ exists v, In v vs /\ size * (f / 2) <= v))).

Record shows (col : nat -> nat) (ps : list (nat * nat * nat)) (h : heatmap) : Prop :=
  { sh_fs : 0 < hm_fs h; sh_fc : 0 < hm_fc h;
    sh_cell : forall r c, r < hm_rows h -> c < hm_cols h -> hm_cell h r c = list_sum (map (hit col (hm_fs h) (hm_fc h) r c) ps) }.

Lemma pow2_pos k : 0 < 2 ^ k.
Proof. pose proof (Nat.pow_nonzero 2 k). lia. Qed.

Lemma even_half n : Nat.even n = true -> n = 2 * (n / 2).
Proof. intros E. apply Nat.even_spec in E as [k ->]. rewrite (Nat.mul_comm 2 k), Nat.div_mul by lia. lia. Qed.

Lemma half_small v f n : 0 < f -> v < n * f -> Nat.even n = true -> v / (f * 2) < n / 2.
Proof.
  intros Hf Hv E. apply even_half in E. apply Nat.div_lt_upper_bound; [lia|]. nia.
Qed.

Lemma grow_rows_ok col ps (id : nat) : forall fuel h,
  hm_rows h * hm_fs h + fuel > id -> shows col ps h -> 2 <= hm_rows h -> Nat.even (hm_rows h) = true ->
  widened (hm_rows h) (hm_fs h) (hm_rtop h) (ys ps) id ->
  exists h', grow_rows fuel id h = Some (Ok h') /\ shows col ps h' /\ hm_rows h' = hm_rows h /\ hm_cols h' = hm_cols h /\
    hm_fc h' = hm_fc h /\ hm_ctop h' = hm_ctop h /\ id < hm_rows h' * hm_fs h' /\
    widened (hm_rows h') (hm_fs h') (hm_rtop h') (ys ps) id.
Proof.
  induction fuel as [|fuel IH]; intros h Hfuel Hs H2 He Hw; cbn [grow_rows].
  - destruct (Nat.leb_spec (hm_rows h * hm_fs h) id); [lia|]. exists h. splits; auto.
  - destruct (Nat.leb_spec (hm_rows h * hm_fs h) id) as [Hle | Hgt].
    + unfold halve_rows. rewrite He.
      set (h1 := mkH _ _ _ _ _ _ _).
      destruct (IH h1) as [h' [E [S' [R1 [R2 [R3 [R4 [R5 R6]]]]]]]].
      * cbn. pose proof (sh_fs Hs). nia.
      * destruct Hs as [Hs1 Hs2 Hs3]. constructor; cbn [h1 hm_fs hm_fc hm_rows hm_cols hm_cell]; [lia | lia |].
        intros r c Hr Hc. destruct (Nat.ltb_spec r (hm_rows h / 2)) as [Hr2 | Hr2].
        -- pose proof (even_half He). rewrite !Hs3 by lia. rewrite <- sum_plus. f_equal. apply map_ext. intros p.
           symmetry. now apply hit_rows.
        -- symmetry. apply hits_none. intros [[y x] src] Hp. unfold hit.
           destruct Hw as [_ [Hb _]]. specialize (Hb y). 
           assert (Iy : In y (ys ps)) by (apply (in_map (fun '(y, _, _) => y)) in Hp; exact Hp).
           pose proof (half_small Hs1 (Hb Iy) He). destruct (Nat.eqb_spec (y / (hm_fs h * 2)) r); [lia | reflexivity].
      * exact H2.
      * exact He.
      * cbn [h1 hm_rows hm_fs hm_rtop]. destruct Hw as [[k Hk] [Hb _]]. split; [|split].
        -- exists (S k). rewrite Nat.pow_succ_r', <- Hk. lia.
        -- intros v Hv. specialize (Hb v Hv). lia.
        -- left. split; [reflexivity|]. split; [|split].
           ++ intros v Hv. apply half_small; [apply Hs | now apply Hb | exact He].
           ++ rewrite Nat.div_mul by lia. exact Hle.
           ++ pose proof (sh_fs Hs). lia.
      * exists h'. cbn [h1 hm_rows hm_cols hm_fc hm_ctop] in *. rewrite E. splits; auto.
    + exists h. splits; auto.
Qed.

Lemma grow_cols_ok col ps (x : nat) : forall fuel h,
  hm_cols h * hm_fc h + fuel > x -> shows col ps h -> 2 <= hm_cols h -> Nat.even (hm_cols h) = true ->
  widened (hm_cols h) (hm_fc h) (hm_ctop h) (xs ps) x ->
  exists h', grow_cols fuel x h = Some (Ok h') /\ shows col ps h' /\ hm_rows h' = hm_rows h /\ hm_cols h' = hm_cols h /\
    hm_fs h' = hm_fs h /\ hm_rtop h' = hm_rtop h /\ x < hm_cols h' * hm_fc h' /\
    widened (hm_cols h') (hm_fc h') (hm_ctop h') (xs ps) x.
Proof.
  induction fuel as [|fuel IH]; intros h Hfuel Hs H2 He Hw; cbn [grow_cols].
  - destruct (Nat.leb_spec (hm_cols h * hm_fc h) x); [lia|]. exists h. splits; auto.
  - destruct (Nat.leb_spec (hm_cols h * hm_fc h) x) as [Hle | Hgt].
    + unfold halve_cols. rewrite He.
      set (h1 := mkH _ _ _ _ _ _ _).
      destruct (IH h1) as [h' [E [S' [R1 [R2 [R3 [R4 [R5 R6]]]]]]]].
      * cbn. pose proof (sh_fc Hs). nia.
      * destruct Hs as [Hs1 Hs2 Hs3]. constructor; cbn [h1 hm_fs hm_fc hm_rows hm_cols hm_cell]; [lia | lia |].
        intros r c Hr Hc. destruct (Nat.ltb_spec c (hm_cols h / 2)) as [Hr2 | Hr2].
        -- pose proof (even_half He). rewrite !Hs3 by lia. rewrite <- sum_plus. f_equal. apply map_ext. intros p.
           symmetry. now apply hit_cols.
        -- symmetry. apply hits_none. intros [[y x'] src] Hp. unfold hit.
           destruct Hw as [_ [Hb _]]. specialize (Hb x'). 
           assert (Iy : In x' (xs ps)) by (apply (in_map (fun '(_, x, _) => x)) in Hp; exact Hp).
           pose proof (half_small Hs2 (Hb Iy) He). destruct (Nat.eqb_spec (x' / (hm_fc h * 2)) c); [lia |].
           now rewrite Bool.andb_false_r.
      * exact H2.
      * exact He.
      * cbn [h1 hm_cols hm_fc hm_ctop]. destruct Hw as [[k Hk] [Hb _]]. split; [|split].
        -- exists (S k). rewrite Nat.pow_succ_r', <- Hk. lia.
        -- intros v Hv. specialize (Hb v Hv). lia.
        -- left. split; [reflexivity|]. split; [|split].
           ++ intros v Hv. apply half_small; [apply Hs | now apply Hb | exact He].
           ++ rewrite Nat.div_mul by lia. exact Hle.
           ++ pose proof (sh_fc Hs). lia.
      * exists h'. cbn [h1 hm_rows hm_cols hm_fs hm_rtop] in *. rewrite E. splits; auto.
    + exists h. splits; auto.
Qed.

Lemma axis_widened size f top vs v0 : axis size f top vs -> widened size f top vs v0.
Proof. intros [A [B [C [D E]]]]. split; [exact A|]. split; [exact B|]. right. auto. Qed.

(** after storing the new point *)
Lemma widened_axis size f top vs v0 :
  widened size f top vs v0 -> v0 < size * f -> Nat.even size = true ->
  axis size f (Nat.max top (S (v0 / f))) (vs ++ [v0]).
Proof.
  intros [[k Hk] [Hb Hw]] Hv0 He. assert (Hf : 0 < f) by (rewrite Hk; apply pow2_pos).
  split; [now exists k|]. split; [|].
  { intros v [Hv | [<- | []]] % in_app_or; [now apply Hb | exact Hv0]. }
  destruct Hw as [[Ht [Hs [Hz H2f]]] | [Ht [Hm Hz]]].
  - assert (Hbig : size / 2 <= v0 / f).
    { apply Nat.div_le_lower_bound; [lia|]. apply even_half in He.
      destruct k as [|k]; [cbn in Hk; lia|]. rewrite Nat.pow_succ_r' in Hk.
      rewrite Hk in Hz. rewrite (Nat.mul_comm 2 (2 ^ k)), Nat.div_mul in Hz by lia. nia. }
    split; [|split].
    + intros v [Hv | [<- | []]] % in_app_or; [specialize (Hs v Hv)|]; lia.
    + right. exists v0. split; [apply in_or_app; right; now left | lia].
    + right. exists v0. split; [apply in_or_app; right; now left | exact Hz].
  - split; [|split].
    + intros v [Hv | [<- | []]] % in_app_or; [specialize (Ht v Hv)|]; lia.
    + right. destruct (Nat.le_gt_cases top (S (v0 / f))) as [Hle | Hgt].
      * exists v0. split; [apply in_or_app; right; now left |]. rewrite Nat.max_r by exact Hle. rewrite Nat.sub_succ, Nat.sub_0_r. apply Nat.le_refl.
      * destruct Hm as [-> | [v [Hv1 Hv2]]]; [now apply Nat.nlt_0_r in Hgt|]. exists v. split; [apply in_or_app; now left |]. rewrite Nat.max_l by (apply Nat.lt_le_incl; exact Hgt). exact Hv2.
    + destruct Hz as [-> | [v [Hv1 Hv2]]]; [now left|]. right. exists v. split; [apply in_or_app; now left | exact Hv2].
Qed.

Definition good (pal : list nat) (csize rows cols : nat) (ps : list (nat * nat * nat)) (h : heatmap) : Prop :=
  shows (colour pal csize) ps h /\ hm_rows h = rows /\ hm_cols h = cols /\
  axis rows (hm_fs h) (hm_rtop h) (ys ps) /\ axis cols (hm_fc h) (hm_ctop h) (xs ps).

Lemma hm_add_good pal csize rows cols ps id x src h fuel :
  2 <= rows -> 2 <= cols -> Nat.even rows = true -> Nat.even cols = true ->
  good pal csize rows cols ps h -> id < fuel -> x < fuel ->
  exists h', hm_add pal csize fuel (id, x, src) h = Some (Ok h') /\ good pal csize rows cols (ps ++ [(id, x, src)]) h'.
Proof.
  intros R2 C2 Re Ce [Hs [Hr [Hc [Ax Ay]]]] Hi Hx. unfold hm_add. subst rows cols.
  destruct (@grow_rows_ok (colour pal csize) ps id fuel h) as [h1 [E1 [S1 [A1 [A2 [A3 [A4 [A5 A6]]]]]]]]; auto.
  { lia. } { now apply axis_widened. }
  rewrite E1.
  destruct (@grow_cols_ok (colour pal csize) ps x fuel h1) as [h2 [E2 [S2 [B1 [B2 [B3 [B4 [B5 B6]]]]]]]]; auto.
  { lia. } { congruence. } { congruence. }
  { rewrite A2, A3, A4. now apply axis_widened. }
  rewrite E2. eexists. split; [reflexivity|].
  assert (Ey : ys (ps ++ [(id, x, src)]) = ys ps ++ [id]) by (unfold ys; now rewrite map_app).
  assert (Ex : xs (ps ++ [(id, x, src)]) = xs ps ++ [x]) by (unfold xs; now rewrite map_app).
  unfold good. rewrite Ey, Ex. cbn [hm_put hm_rows hm_cols hm_fs hm_fc hm_rtop hm_ctop].
  split; [|split; [|split; [|split]]].
  - destruct S2 as [Z1 Z2 Z3]. constructor; cbn [hm_put hm_rows hm_cols hm_fs hm_fc hm_cell]; auto.
    intros r c Hr2 Hc2. rewrite map_app, list_sum_app, <- Z3 by assumption. cbn [map list_sum fold_right hit].
    rewrite (Nat.eqb_sym r), (Nat.eqb_sym c).
    destruct ((id / hm_fs h2 =? r) && (x / hm_fc h2 =? c)); lia.
  - congruence.
  - congruence.
  - rewrite B3, B4, <- A1. apply widened_axis; auto. congruence.
  - rewrite <- A2, <- B2. apply widened_axis; auto. congruence.
Qed.

Lemma hm_new_good pal csize rows cols : good pal csize rows cols [] (hm_new rows cols).
Proof.
  repeat split; cbn; try lia; try (exists 0; reflexivity); try (now left); intros; contradiction.
Qed.

Lemma hm_adds_good pal csize rows cols : 2 <= rows -> 2 <= cols -> Nat.even rows = true -> Nat.even cols = true ->
  forall more ps h fuel, good pal csize rows cols ps h ->
  (forall y x src, In (y, x, src) more -> y < fuel /\ x < fuel) ->
  exists h', hm_adds pal csize fuel more h = Some (Ok h') /\ good pal csize rows cols (ps ++ more) h'.
Proof.
  intros R2 C2 Re Ce. induction more as [|[[id x] src] more IH]; intros ps h fuel Hg Hb.
  - exists h. rewrite app_nil_r. split; [reflexivity | exact Hg].
  - cbn [hm_adds]. destruct (Hb id x src (or_introl eq_refl)) as [B1 B2].
    destruct (@hm_add_good pal csize rows cols ps id x src h fuel) as [h1 [E1 G1]]; auto. rewrite E1.
    destruct (IH (ps ++ [(id, x, src)]) h1 fuel G1) as [h' [E' G']].
    { intros. eapply Hb. right; eassumption. }
    exists h'. split; [exact E'|]. now rewrite <- app_assoc in G'.
Qed.

Lemma axis_fits size f top vs : axis size f top vs -> fits size f top vs.
Proof.
  intros [[k Hk] [B [C [D E]]]]. assert (Hf : 0 < f) by (rewrite Hk; apply pow2_pos).
  split; [now exists k|]. split; [|split; [|split]].
  - destruct D as [-> | [v [Hv Hd]]]; [lia|]. specialize (B v Hv).
    assert (v / f < size) by (apply Nat.div_lt_upper_bound; lia). lia.
  - intros v Hv. specialize (C v Hv). pose proof (Nat.div_mod v f ltac:(lia)). pose proof (Nat.mod_upper_bound v f ltac:(lia)). nia.
  - destruct D as [-> | [v [Hv Hd]]]; [now left|]. right. exists v. split; [exact Hv|].
    pose proof (Nat.div_mod v f ltac:(lia)). nia.
  - exact E.
Qed.

Lemma good_picture pal csize rows cols ps h :
  good pal csize rows cols ps h ->
  hm_image h = picture (colour pal csize) (hm_fs h) (hm_fc h) (hm_rtop h) (hm_ctop h) ps.
Proof.
  intros [[Z1 Z2 Z3] [Hr [Hc [Ax Ay]]]]. apply axis_fits in Ax, Ay. destruct Ax as [_ [X1 _]], Ay as [_ [Y1 _]].
  unfold hm_image, picture. subst rows cols. rewrite !Nat.min_l by lia.
  apply map_ext_in. intros r Hr. apply in_seq in Hr. apply map_ext_in. intros c Hc. apply in_seq in Hc.
  rewrite pixel_hit by assumption. apply Z3; lia.
Qed.

(* ---------------- reading the logs ---------------- *)
Definition mine (sel : nat) (l : line) : bool := l_id l =? sel.
Definition later (sel idx : nat) (l : line) : bool := (l_id l =? sel) && (idx <? l_g l).

Fixpoint ascending (sel idx : nat) (ls : list line) : Prop :=
  match ls with
  | [] => True
  | l :: ls' => if l_id l =? sel then idx <= l_g l /\ ascending sel (l_g l) ls' else ascending sel idx ls'
  end.

Definition step_keys (sel s : nat) (ls : list line) : list string :=
  flat_map (fun l => if (l_id l =? sel) && (l_g l =? s) then match l_keys l with Some ks => ks | None => [] end else []) ls.

Lemma ascending_ge sel : forall ls idx l, ascending sel idx ls -> In l ls -> l_id l = sel -> idx <= l_g l.
Proof.
  induction ls as [|l0 ls IH]; intros idx l Ha Hin He; [contradiction|]. cbn in Ha.
  destruct (Nat.eqb_spec (l_id l0) sel) as [E | N].
  - destruct Ha as [A1 A2]. destruct Hin as [<- | Hin]; [exact A1|]. specialize (IH _ _ A2 Hin He). lia.
  - destruct Hin as [<- | Hin]; [contradiction|]. eapply IH; eauto.
Qed.

Lemma ascending_weaken sel : forall ls i j, i <= j -> ascending sel j ls -> ascending sel i ls.
Proof.
  induction ls as [|l ls IH]; intros i j Hij Ha; [exact I|]. cbn in *.
  destruct (l_id l =? sel); [split; [lia | apply Ha] | eapply IH; eauto].
Qed.

Lemma step_keys_none sel s ls : (forall l, In l ls -> l_id l = sel -> l_g l <> s) -> step_keys sel s ls = [].
Proof.
  induction ls as [|l ls IH]; intros H; [reflexivity|]. cbn. fold (step_keys sel s ls). rewrite IH by (intros; apply H; [now right | auto]).
  destruct (Nat.eqb_spec (l_id l) sel); [|reflexivity].
  destruct (Nat.eqb_spec (l_g l) s) as [E|]; [|reflexivity]. exfalso. eapply H; [now left | auto | exact E].
Qed.

Lemma log_entries_filter sel : forall ls idx, log_entries sel idx (filter (mine sel) ls) = log_entries sel idx ls.
Proof.
  induction ls as [|l ls IH]; intros idx; [reflexivity|]. cbn [filter]. unfold mine at 1.
  destruct (l_id l =? sel) eqn:E; cbn [log_entries]; rewrite E; [|apply IH].
  now rewrite IH.
Qed.

Lemma drain_nexts k its : drain (repeat NextStep (S k) ++ its) = Ok ([], Some (repeat NextStep k ++ its)).
Proof. reflexivity. Qed.

Lemma filter_later_all sel idx : forall ls, (forall l, In l ls -> l_id l = sel -> idx < l_g l) ->
  filter (later sel idx) ls = filter (mine sel) ls.
Proof.
  induction ls as [|l ls IH]; intros H; [reflexivity|]. cbn [filter]. rewrite IH by (intros; apply H; [now right | auto]).
  replace (later sel idx l) with (mine sel l && (idx <? l_g l)) by reflexivity.
  assert (Em : mine sel l = (l_id l =? sel)) by reflexivity. rewrite Em. destruct (Nat.eqb_spec (l_id l) sel) as [E|]; [|reflexivity].
  cbn [andb]. destruct (Nat.ltb_spec idx (l_g l)); [reflexivity|]. exfalso.
  pose proof (H l (or_introl eq_refl) E). lia.
Qed.

Lemma drain_log sel : forall ls idx, ascending sel idx ls ->
  drain (log_entries sel idx ls) =
  Ok (step_keys sel idx ls,
      match filter (later sel idx) ls with [] => None | _ => Some (log_entries sel (S idx) (filter (later sel idx) ls)) end).
Proof.
  induction ls as [|l ls IH]; intros idx Ha; [reflexivity|]. cbn [log_entries ascending] in *.
  cbn [filter step_keys flat_map]. fold (step_keys sel idx ls).
  assert (Ell : later sel idx l = (l_id l =? sel) && (idx <? l_g l)) by reflexivity. rewrite !Ell. clear Ell.
  destruct (Nat.eqb_spec (l_id l) sel) as [E | N]; cbn [andb].
  - destruct Ha as [A1 A2]. destruct (Nat.ltb_spec (l_g l) idx); [lia|].
    destruct (Nat.ltb_spec idx (l_g l)) as [Hlt | Hge].
    + destruct (Nat.eqb_spec (l_g l) idx); [lia|]. cbn [app].
      replace (l_g l - idx) with (S (l_g l - S idx)) by lia. rewrite drain_nexts. f_equal. f_equal.
      * symmetry. apply step_keys_none. intros l' Hl' El'. pose proof (ascending_ge A2 Hl' El'). lia.
      * f_equal. cbn [log_entries]. rewrite E, Nat.eqb_refl. destruct (Nat.ltb_spec (l_g l) (S idx)); [lia|].
        rewrite filter_later_all, log_entries_filter; [reflexivity|].
        intros l' Hl' El'. pose proof (ascending_ge A2 Hl' El'). lia.
    + assert (El : l_g l = idx) by lia. rewrite El, Nat.sub_diag, Nat.eqb_refl. cbn [repeat app].
      rewrite El in A2. specialize (IH idx A2).
      destruct (l_keys l) as [ks|]; cbn [app drain]; rewrite IH; reflexivity.
  - now apply IH.
Qed.

Lemma step_keys_later sel idx s : idx < s -> forall ls, step_keys sel s (filter (later sel idx) ls) = step_keys sel s ls.
Proof.
  intros Hlt. induction ls as [|l ls IH]; [reflexivity|]. cbn [filter step_keys flat_map]. fold (step_keys sel s ls).
  unfold later at 1. destruct (l_id l =? sel) eqn:El; cbn [andb app].
  - destruct (Nat.ltb_spec idx (l_g l)); cbn [step_keys flat_map app]; fold (step_keys sel s (filter (later sel idx) ls)).
    + now rewrite El, IH.
    + destruct (Nat.eqb_spec (l_g l) s); [lia|]. exact IH.
  - exact IH.
Qed.

Lemma ascending_later sel idx : forall ls i, ascending sel i ls -> ascending sel (Nat.max i (S idx)) (filter (later sel idx) ls).
Proof.
  induction ls as [|l ls IH]; intros i Ha; [exact I|]. cbn [filter ascending] in *. unfold later at 1.
  destruct (l_id l =? sel) eqn:El; cbn [andb].
  - destruct Ha as [A1 A2]. destruct (Nat.ltb_spec idx (l_g l)); cbn [ascending].
    + rewrite El. split; [lia|]. specialize (IH _ A2). eapply ascending_weaken; [|exact IH]. lia.
    + specialize (IH _ A2). eapply ascending_weaken; [|exact IH]. lia.
  - now apply IH.
Qed.

(* ---------------- numbering the keys ---------------- *)
Lemma position_spec k : forall idx, match position k idx with
  | Some i => nth_error idx i = Some k /\ existsb (String.eqb k) idx = true
  | None => existsb (String.eqb k) idx = false end.
Proof.
  induction idx as [|k' idx IH]; [reflexivity|]. cbn. destruct (String.eqb_spec k k') as [-> | N].
  - cbn. auto.
  - destruct (position k idx) as [i|]; cbn; exact IH.
Qed.

Lemma firsts_prefix : forall l acc, exists new, firsts acc l = acc ++ new.
Proof.
  induction l as [|k l IH]; intros acc; cbn; [exists []; now rewrite app_nil_r|].
  destruct (existsb (String.eqb k) acc); [apply IH|].
  destruct (IH (acc ++ [k])) as [new ->]. exists ([k] ++ new). now rewrite app_assoc.
Qed.

Lemma firsts_app : forall l l' acc, firsts acc (l ++ l') = firsts (firsts acc l) l'.
Proof. induction l as [|k l IH]; intros l' acc; [reflexivity|]. cbn. apply IH. Qed.

Lemma numbered_mono acc l e p : numbered acc e p -> numbered (firsts acc l) e p.
Proof.
  destruct e as [[k s] i], p as [[id s'] i']. intros [A B]. split; [|exact B].
  destruct (firsts_prefix l acc) as [new ->]. rewrite nth_error_app1; [exact A|]. apply nth_error_Some. congruence.
Qed.

Lemma Forall2_imp {A B} (P Q : A -> B -> Prop) l l' : (forall x y, P x y -> Q x y) -> Forall2 P l l' -> Forall2 Q l l'.
Proof. intros H F. induction F; constructor; auto. Qed.

Lemma place_ok step src : forall ks idx ps idx', place step src ks idx = (ps, idx') ->
  idx' = firsts idx ks /\ Forall2 (numbered idx') (map (fun k => (k, step, src)) ks) ps.
Proof.
  induction ks as [|k ks IH]; intros idx ps idx' E; cbn in E.
  - injection E as <- <-. split; [reflexivity | constructor].
  - unfold setdefault in E. pose proof (position_spec k idx) as P. destruct (position k idx) as [i|].
    + destruct (place step src ks idx) as [ps1 idx1] eqn:E1. injection E as <- <-.
      destruct (IH _ _ _ E1) as [-> F]. destruct P as [P1 P2]. cbn. rewrite P2. split; [reflexivity|].
      constructor; [|exact F]. apply numbered_mono. cbn. auto.
    + destruct (place step src ks (idx ++ [k])) as [ps1 idx1] eqn:E1. injection E as <- <-.
      destruct (IH _ _ _ E1) as [-> F]. cbn. rewrite P. split; [reflexivity|].
      constructor; [|exact F]. apply numbered_mono. cbn. split; [|auto].
      rewrite nth_error_app2, Nat.sub_diag by lia. reflexivity.
Qed.

(* ---------------- all the steps ---------------- *)
Definition at_step (sel idx step : nat) (L : list (nat * list line)) : list (string * nat * nat) :=
  flat_map (fun '(i, ls) => map (fun k => (k, step, i)) (step_keys sel idx ls)) L.

Definition next_L (sel idx : nat) (L : list (nat * list line)) : list (nat * list line) :=
  flat_map (fun '(i, ls) => match filter (later sel idx) ls with [] => [] | ls' => [(i, ls')] end) L.

Definition iters_of (sel idx : nat) (L : list (nat * list line)) : list (nat * list item) :=
  map (fun '(i, ls) => (i, log_entries sel idx ls)) L.

Definition key_of (e : string * nat * nat) : string := let '(k, _, _) := e in k.

Lemma key_map step i ks : map key_of (map (fun k => (k, step, i)) ks) = ks.
Proof. rewrite map_map. cbn. apply map_id. Qed.

Lemma one_step_ok sel idx step : forall L ix,
  (forall i ls, In (i, ls) L -> ascending sel idx ls) ->
  exists ps ix', one_step step (iters_of sel idx L) ix = Ok (ps, iters_of sel (S idx) (next_L sel idx L), ix') /\
    ix' = firsts ix (map key_of (at_step sel idx step L)) /\
    Forall2 (numbered ix') (at_step sel idx step L) ps.
Proof.
  induction L as [|[i ls] L IH]; intros ix Ha; cbn [iters_of map one_step].
  - exists [], ix. cbn. repeat split; constructor.
  - rewrite drain_log by (eapply Ha; now left). cbn [bind].
    destruct (place step i (step_keys sel idx ls) ix) as [ps1 ix1] eqn:E1.
    destruct (place_ok E1) as [-> F1].
    destruct (IH (firsts ix (step_keys sel idx ls))) as [ps2 [ix2 [E2 [X2 F2]]]].
    { intros j ls' Hj. eapply Ha. right; eassumption. }
    fold (iters_of sel idx L). rewrite E2. cbn [bind].
    exists (ps1 ++ ps2), ix2. cbn [at_step flat_map next_L]. fold (at_step sel idx step L). fold (next_L sel idx L).
    split; [|split].
    + destruct (filter (later sel idx) ls); reflexivity.
    + rewrite map_app, key_map, firsts_app. exact X2.
    + apply Forall2_app; [|exact F2]. eapply Forall2_imp; [|exact F1]. intros e p. rewrite X2. apply numbered_mono.
Qed.

Lemma next_L_in sel idx i ls' L : In (i, ls') (next_L sel idx L) ->
  exists ls, In (i, ls) L /\ ls' = filter (later sel idx) ls.
Proof.
  unfold next_L. intros H. apply in_flat_map in H as [[j ls] [H1 H2]]. destruct (filter (later sel idx) ls) eqn:E; [contradiction|].
  destruct H2 as [H2 | []]. injection H2 as -> <-. exists ls. auto.
Qed.

Lemma at_step_next sel idx s step : idx < s -> forall L, at_step sel s step (next_L sel idx L) = at_step sel s step L.
Proof.
  intros Hlt. induction L as [|[i ls] L IH]; [reflexivity|]. cbn [next_L at_step flat_map]. fold (next_L sel idx L).
  unfold at_step. rewrite flat_map_app. fold (at_step sel s step (next_L sel idx L)). rewrite IH.
  fold (at_step sel s step L). f_equal. rewrite <- (step_keys_later sel Hlt ls).
  destruct (filter (later sel idx) ls); [reflexivity|]. cbn [flat_map]. now rewrite app_nil_r.
Qed.

(** the keys of steps step .. step + m - 1, which are at indices idx .. in the logs *)
Definition seen (sel idx step m : nat) (L : list (nat * list line)) : list (string * nat * nat) :=
  flat_map (fun s => at_step sel (idx + s) (step + s) L) (seq 0 m).

Lemma seen_S sel idx step m L : seen sel idx step (S m) L = at_step sel idx step L ++ seen sel (S idx) (S step) m L.
Proof.
  unfold seen. cbn [seq flat_map]. rewrite !Nat.add_0_r. f_equal. rewrite <- seq_shift, flat_map_concat_map, map_map, <- flat_map_concat_map.
  apply flat_map_ext. intros s. f_equal; lia.
Qed.

Lemma seen_ext sel idx step m L L' : (forall s st, idx <= s -> at_step sel s st L = at_step sel s st L') ->
  seen sel idx step m L = seen sel idx step m L'.
Proof. intros H. unfold seen. apply flat_map_ext. intros s. apply H. lia. Qed.

Lemma at_step_empty sel idx step L : (forall i ls l, In (i, ls) L -> In l ls -> l_id l = sel -> l_g l <> idx) -> at_step sel idx step L = [].
Proof.
  induction L as [|[i ls] L IH]; intros H; [reflexivity|]. cbn. fold (at_step sel idx step L).
  rewrite IH by (intros; eapply H; [right; eassumption | |]; eauto).
  rewrite step_keys_none; [reflexivity|]. intros. eapply H; [now left | |]; eauto.
Qed.

Lemma all_steps_ok sel : forall m idx step L ix fuel,
  (forall i ls, In (i, ls) L -> ascending sel idx ls) ->
  (forall i ls l, In (i, ls) L -> In l ls -> l_id l = sel -> l_g l < idx + m) ->
  m < fuel ->
  exists ps ix' n, all_steps fuel step (iters_of sel idx L) ix = Some (Ok (ps, ix', n)) /\
    ix' = firsts ix (map key_of (seen sel idx step m L)) /\ Forall2 (numbered ix') (seen sel idx step m L) ps /\
    step <= n <= step + S m /\ (forall i ls l, In (i, ls) L -> In l ls -> l_id l = sel -> l_g l + step < idx + n).
Proof.
  induction m as [|m IH]; intros idx step L ix fuel Ha Hb Hf.
  - destruct fuel as [|fuel]; [lia|]. destruct L as [|p L].
    + exists [], ix, step. cbn. repeat split; try lia; try constructor; try (intros; contradiction).
    + set (L1 := p :: L) in *. assert (Hnone : next_L sel idx L1 = []).
      { destruct (next_L sel idx L1) as [|[i ls'] rest] eqn:E; [reflexivity|]. exfalso.
        destruct (@next_L_in sel idx i ls' L1) as [ls [H1 ->]]; [rewrite E; now left|].
        assert (Hne : filter (later sel idx) ls <> []).
        { intros E0. assert (In (i, filter (later sel idx) ls) (next_L sel idx L1)) as Hin by (rewrite E; now left).
          unfold next_L in Hin. apply in_flat_map in Hin as [[j ls0] [Q1 Q2]].
          destruct (filter (later sel idx) ls0) eqn:E1; [contradiction|]. destruct Q2 as [Q2 | []]. injection Q2 as _ Q2.
          rewrite E0 in Q2. discriminate. }
        destruct (filter (later sel idx) ls) as [|l0 r0] eqn:E0; [now apply Hne|].
        assert (In l0 (filter (later sel idx) ls)) as Hl0 by (rewrite E0; now left).
        apply filter_In in Hl0 as [Q1 Q2]. unfold later in Q2. apply Bool.andb_true_iff in Q2 as [Q2 Q3].
        apply Nat.eqb_eq in Q2. apply Nat.ltb_lt in Q3. pose proof (Hb _ _ _ H1 Q1 Q2). lia. }
      destruct (@one_step_ok sel idx step L1 ix Ha) as [ps [ix' [E [X F]]]].
      assert (Enil : at_step sel idx step L1 = []).
      { apply at_step_empty. intros i ls l H1 H2 H3. pose proof (Hb _ _ _ H1 H2 H3). lia. }
      rewrite Enil in X, F. cbn in X. subst ix'. inversion F; subst.
      exists [], ix, (S step). cbn [iters_of map all_steps L1]. destruct p as [i0 ls0].
      fold (iters_of sel idx L). change ((i0, log_entries sel idx ls0) :: iters_of sel idx L) with (iters_of sel idx L1).
      rewrite E, Hnone. cbn [iters_of map]. 
      assert (A0 : all_steps fuel (S step) [] ix = Some (Ok ([], ix, S step))) by (destruct fuel; reflexivity).
      rewrite A0. cbn. repeat split; try lia; try constructor.
      intros i ls l H1 H2 H3. pose proof (Hb _ _ _ H1 H2 H3). pose proof (ascending_ge (Ha _ _ H1) H2 H3). lia.
  - destruct fuel as [|fuel]; [lia|]. destruct L as [|p L].
    + exists [], ix, step. cbn [iters_of map all_steps].
      assert (Enil : forall idx step m, seen sel idx step m [] = []).
      { intros. unfold seen. cbn. induction (seq 0 m0); auto. }
      rewrite Enil. cbn. repeat split; try lia; try constructor; try (intros; contradiction).
    + set (L1 := p :: L) in *.
      destruct (@one_step_ok sel idx step L1 ix Ha) as [ps [ix1 [E [X F]]]].
      destruct (IH (S idx) (S step) (next_L sel idx L1) ix1 fuel) as [ps2 [ix2 [n [E2 [X2 [F2 [N1 N2]]]]]]].
      { intros i ls' Hin. apply next_L_in in Hin as [ls [H1 ->]].
        eapply ascending_weaken; [|apply ascending_later; eapply Ha; exact H1]. lia. }
      { intros i ls' l Hin Hl Hid. apply next_L_in in Hin as [ls [H1 ->]]. apply filter_In in Hl as [Hl _].
        pose proof (Hb _ _ _ H1 Hl Hid). lia. }
      { lia. }
      exists (ps ++ ps2), ix2, n. cbn [iters_of map all_steps L1]. destruct p as [i0 ls0].
      fold (iters_of sel idx L). change ((i0, log_entries sel idx ls0) :: iters_of sel idx L) with (iters_of sel idx L1).
      rewrite E, E2. rewrite seen_S.
      assert (Es : seen sel (S idx) (S step) m (next_L sel idx L1) = seen sel (S idx) (S step) m L1).
      { apply seen_ext. intros s st Hs. apply at_step_next. lia. }
      rewrite Es in X2, F2. split; [reflexivity|]. split; [|split; [|split]].
      * rewrite map_app, firsts_app, <- X. exact X2.
      * apply Forall2_app; [|exact F2]. eapply Forall2_imp; [|exact F]. intros e q. rewrite X2. apply numbered_mono.
      * lia.
      * intros i ls l H1 H2 H3. destruct (Nat.eq_dec (l_g l) idx) as [-> | Hne]; [lia|].
        assert (Hgt : idx < l_g l) by (pose proof (ascending_ge (Ha _ _ H1) H2 H3); lia).
        assert (Hl : In l (filter (later sel idx) ls)).
        { apply filter_In. split; [exact H2|]. unfold later. apply Bool.andb_true_iff. split; [now apply Nat.eqb_eq | now apply Nat.ltb_lt]. }
        assert (Hin : In (i, filter (later sel idx) ls) (next_L sel idx L1)).
        { unfold next_L. apply in_flat_map. exists (i, ls). split; [exact H1|]. destruct (filter (later sel idx) ls); [contradiction | now left]. }
        pose proof (N2 _ _ _ Hin Hl H3). lia.
Qed.
