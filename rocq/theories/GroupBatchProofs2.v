(** GroupBatchDataset: its events are grouped batches. *)
From Coq Require Import String Permutation.
From Verif Require Import Base Dataset DatasetProofs Wrap WrapProofs WrapRun WrapTrace WrapSpec WrapLib
  Wrappers IdxProofs Buffer BufferProofs Batch BatchSpec GroupBatch GroupBatchSpec GroupBatchProofs.
Local Open Scope nat_scope.
Local Open Scope list_scope.

Section GB2.
  Context {A B K : Type} (keq : K -> K -> bool) (nw : nat) (fixed : option nat) (drop_last repaired : bool).
  Variable kf : nat -> nat -> A -> ures (K * option nat).
  Variable f : nat -> nat -> list A -> ures B.
  Variables (w : nat) (cls : nat -> A -> option K) (size : K -> nat).
  Hypothesis Hkeq : forall a b, keq a b = true <-> a = b.
  Hypothesis Hby : groups_by fixed (kf w) cls size.
  Hypothesis Hsz : forall k, 0 < size k.
  Hypothesis Hf : forall i l, f w i l <> UFatal.
  Notation ct := (content (A := A) (K := K)).
  Notation pss := (pst (A := A) (K := K)).

  Lemma keq_refl k : keq k k = true.
  Proof. apply Hkeq. reflexivity. Qed.
  Lemma keq_neq a b : a <> b -> keq a b = false.
  Proof. intros H. destruct (keq a b) eqn:E; [|reflexivity]. apply Hkeq in E. contradiction. Qed.

  (** the samples of group [k] that are waiting *)
  Fixpoint wait (k : K) (v : ct) : list (sample A) :=
    match v with [] => [] | (k', (_, l)) :: v' => if keq k' k then l else wait k v' end.

  Lemma kpos_spec (v : ct) k : match kpos keq k v with
    | Some j => exists bs l, nth_error v j = Some (k, (bs, l)) /\ wait k v = l
    | None => ~ In k (map fst v) /\ wait k v = []
    end.
  Proof.
    induction v as [|[k' [bs l]] v IH]; cbn [kpos wait map fst]; [split; [intros []|reflexivity]|].
    destruct (keq k' k) eqn:E.
    - apply Hkeq in E. subst k'. exists bs, l. split; reflexivity.
    - destruct (kpos keq k v) as [j|]; cbn [option_map].
      + destruct IH as (bs' & l' & N & W). exists bs', l'. split; [exact N|exact W].
      + destruct IH as [N W]. split; [|exact W]. intros [->|H]; [rewrite keq_refl in E; discriminate|auto].
  Qed.

  Lemma wait_upd v j k bs l l' : NoDup (map fst v) -> nth_error v j = Some (k, (bs, l)) ->
    map fst (upd v j (k, (bs, l'))) = map fst v /\
    forall k', wait k' (upd v j (k, (bs, l'))) = if keq k k' then l' else wait k' v.
  Proof.
    revert j. induction v as [|[k0 [bs0 l0]] v IH]; intros [|j] ND N; try discriminate; cbn [nth_error upd map fst wait] in *.
    - injection N as -> -> ->. split; [reflexivity|]. intros k'. destruct (keq k k'); reflexivity.
    - inversion_clear ND as [|? ? NI ND']. destruct (IH j ND' N) as [E1 E2]. split; [rewrite E1; reflexivity|]. intros k'. rewrite E2.
      destruct (keq k0 k') eqn:E; [|reflexivity]. apply Hkeq in E. subst k'.
      rewrite keq_neq; [reflexivity|]. intros ->. apply NI. apply nth_error_In in N. apply (in_map fst) in N. exact N.
  Qed.

  Lemma wait_app v k bs l k' : ~ In k (map fst v) -> wait k' (v ++ [(k, (bs, l))]) = if keq k k' then l else wait k' v.
  Proof.
    induction v as [|[k0 [bs0 l0]] v IH]; intros NI; cbn [app wait map fst] in *; [reflexivity|].
    rewrite IH by (intros H; apply NI; right; exact H). destruct (keq k0 k') eqn:E; [|reflexivity]. apply Hkeq in E. subst k'.
    rewrite keq_neq; [reflexivity|]. intros ->. apply NI. left. reflexivity.
  Qed.

  Lemma existsb_keq k ks : existsb (fun k' => keq k' k) ks = true <-> In k ks.
  Proof.
    rewrite existsb_exists. split; [intros (x & I & E); apply Hkeq in E; subst; exact I|intros I; exists k; split; [exact I|apply keq_refl]].
  Qed.

  Lemma existsb_keq_not k ks : existsb (fun k' => keq k' k) ks = false <-> ~ In k ks.
  Proof. rewrite <- existsb_keq. destruct (existsb _ ks); split; intros H; try discriminate; try reflexivity; try (intros; discriminate). exfalso. apply H. reflexivity. Qed.
  Lemma flat_map_in_ext {X Y} (g h : X -> list Y) l : (forall x, In x l -> g x = h x) -> flat_map g l = flat_map h l.
  Proof. induction l as [|x l IH]; intros H; [reflexivity|]. cbn [flat_map]. rewrite (H x) by (left; reflexivity). rewrite IH; [reflexivity|]. intros y I. apply H. right. exact I. Qed.

  Definition good_v (v : ct) : Prop := NoDup (map fst v) /\ Forall (fun q => fst (snd q) = size (fst q)) v.

  Lemma p_add_spec v k a : good_v v -> exists v' j, p_add keq k (size k) a v = Ok (v', j) /\ good_v v' /\
    (map fst v' = if existsb (fun k' => keq k' k) (map fst v) then map fst v else map fst v ++ [k]) /\
    nth_error v' j = Some (k, (size k, wait k v ++ [a])) /\ forall k', wait k' v' = if keq k k' then wait k v ++ [a] else wait k' v.
  Proof.
    intros [ND FS]. unfold p_add. pose proof (kpos_spec v k) as KS. destruct (kpos keq k v) as [j|].
    - destruct KS as (bs & l & N & W). rewrite N. assert (E : bs = size k) by (rewrite Forall_forall in FS; exact (FS _ (nth_error_In _ _ N))).
      subst bs. rewrite Nat.eqb_refl. exists (upd v j (k, (size k, l ++ [a]))), j. split; [reflexivity|].
      destruct (wait_upd (l ++ [a]) ND N) as [E1 E2]. split; [|split; [|split]].
      2:{ rewrite E1. assert (I : In k (map fst v)) by (apply nth_error_In in N; apply (in_map fst) in N; exact N).
          apply existsb_keq in I. rewrite I. reflexivity. }
      + split; [rewrite E1; exact ND|]. apply Forall_upd; [exact FS|reflexivity].
      + rewrite W. apply nth_error_upd_same. apply nth_error_Some. congruence.
      + rewrite W. exact E2.
    - destruct KS as [NI W]. exists (v ++ [(k, (size k, [a]))]), (length v). split; [reflexivity|]. rewrite W. split; [|split; [|split]].
      2:{ rewrite (proj2 (existsb_keq_not k (map fst v)) NI). rewrite map_app. reflexivity. }
      + split; [|apply Forall_app; split; [exact FS|repeat constructor]]. rewrite map_app. cbn [map fst].
        apply (Permutation_NoDup (Permutation_cons_append (map fst v) k)). constructor; assumption.
      + rewrite nth_error_app2, Nat.sub_diag by lia. reflexivity.
      + intros k'. apply wait_app. exact NI.
  Qed.

  Lemma p_flush_good j (p : pss) : good_v (snd p) -> is_raise (snd (p_flush f w j p)) = false -> good_v (snd (fst (p_flush f w j p))).
  Proof.
    destruct p as [[ki bi] v]. cbn [snd p_flush]. intros [ND FS]. destruct (nth_error v j) as [[k [bs l]]|] eqn:N; [|discriminate]. intros _. cbn [fst snd].
    destruct (wait_upd [] ND N) as [E1 _]. split; [rewrite E1; exact ND|]. apply Forall_upd; [exact FS|]. cbn. rewrite Forall_forall in FS. exact (FS _ (nth_error_In _ _ N)).
  Qed.
  Lemma p_sample_good (p : pss) a : good_v (snd p) ->
    is_raise (snd (p_sample keq fixed kf f w p a)) = false /\ good_v (snd (fst (p_sample keq fixed kf f w p a))).
  Proof.
    destruct p as [[ki bi] v]. cbn [snd]. intros GV. unfold p_sample. pose proof (Hby ki (pl a)) as HB1. destruct (cls ki (pl a)) as [k|].
    - assert (E : exists m, kf w ki (pl a) = UOk (k, m) /\ gb_size fixed m = Some (size k)).
      { destruct HB1 as [[-> ->]|[-> ->]]; eexists; split; reflexivity. }
      destruct E as (m & -> & ->). destruct (p_add_spec k a GV) as (v' & j & -> & GV' & _ & N & _).
      destruct (size k <=? p_len j v'); [|split; [reflexivity|exact GV']].
      assert (R : is_raise (snd (p_flush f w j (S ki, bi, v'))) = false).
      { cbn [p_flush]. rewrite N. cbn [snd]. pose proof (@Hf bi (map pl (wait k v ++ [a]))) as HF1. destruct (f w bi _); [reflexivity..|congruence]. }
      split; [exact R|]. apply p_flush_good; [exact GV'|exact R].
    - destruct HB1 as [-> | ->]; split; [reflexivity|exact GV|reflexivity|exact GV].
  Qed.

  Lemma of_key_app {X} k (l1 l2 : list (K * X)) : of_key keq k (l1 ++ l2) = of_key keq k l1 ++ of_key keq k l2.
  Proof. unfold of_key. rewrite filter_app, map_app. reflexivity. Qed.
  Lemma of_key_one {X} k k' (x : X) : of_key keq k [(k', x)] = if keq k' k then [x] else [].
  Proof. unfold of_key. cbn. destruct (keq k' k); reflexivity. Qed.

  Lemma of_key_cons {X} k k' (x : X) l : of_key keq k ((k', x) :: l) = (if keq k' k then [x] else []) ++ of_key keq k l.
  Proof. unfold of_key. cbn. destruct (keq k' k); reflexivity. Qed.

  Lemma classified_snoc i xs a : classified cls i (xs ++ [a]) =
    classified cls i xs ++ match cls (i + length xs) (pl a) with Some k => [(k, a)] | None => [] end.
  Proof.
    revert i. induction xs as [|x xs IH]; intros i; cbn [app classified length]; [rewrite app_nil_r, Nat.add_0_r; reflexivity|].
    rewrite IH, <- app_assoc. do 3 f_equal. replace (i + S (length xs)) with (S i + length xs) by lia. reflexivity.
  Qed.

  Lemma completed_snoc {X} (l : list (K * X)) k a : completed keq size (l ++ [(k, a)]) = completed keq size l ++
    (let s := of_key keq k l ++ [a] in if length s mod size k =? 0 then [(k, skipn (length s - size k) s)] else []).
  Proof.
    unfold completed. rewrite app_length. cbn [length]. rewrite seq_app, flat_map_app. f_equal.
    - apply flat_map_in_ext. intros n I. apply in_seq in I. rewrite nth_error_app1 by lia.
      rewrite firstn_app. replace (S n - length l) with 0 by lia. cbn [firstn]. rewrite app_nil_r. reflexivity.
    - cbn [plus seq flat_map]. rewrite nth_error_app2, Nat.sub_diag by lia. cbn [nth_error]. rewrite app_nil_r.
      rewrite firstn_all2 by (rewrite app_length; cbn; lia). rewrite of_key_app, of_key_one, keq_refl. reflexivity.
  Qed.

  Lemma first_seen_snoc ks k : first_seen keq (ks ++ [k]) =
    if existsb (fun k' => keq k' k) (first_seen keq ks) then first_seen keq ks else first_seen keq ks ++ [k].
  Proof. unfold first_seen. rewrite fold_left_app. reflexivity. Qed.

  (** the groups and the known keys are as they should be *)
  Definition Ordered (l : list (K * sample A)) (kgs : list (K * list (sample A))) (v : ct) : Prop :=
    kgs = completed keq size l /\ map fst v = first_seen keq (map fst l).

  (** [xs]: the samples of the epoch so far, [kgs] the groups so far *)
  Definition GInv (ki : nat) (xs : list (sample A)) (kgs : list (K * list (sample A))) (v : ct) : Prop :=
    (good_v v /\ Ordered (classified cls ki xs) kgs v) /\ forall k, of_key keq k (classified cls ki xs) = concat (of_key keq k kgs) ++ wait k v /\
      Forall (fun g => length g = size k) (of_key keq k kgs) /\ length (wait k v) < size k.

  Lemma GInv_init ki : GInv ki [] [] [].
  Proof. split; [split; split; try constructor; reflexivity|]. intros k. split; [reflexivity|]. split; [constructor|]. apply Hsz. Qed.

  Lemma GInv_step ki xs kgs v bi a : GInv ki xs kgs v -> exists new v',
    fst (p_sample keq fixed kf f w (ki + length xs, bi, v) a) = (ki + length (xs ++ [a]), bi + length new, v') /\
    is_raise (snd (p_sample keq fixed kf f w (ki + length xs, bi, v) a)) = false /\
    obs (snd (p_sample keq fixed kf f w (ki + length xs, bi, v) a)) = map Yield (group_batches (f w) bi (map snd new)) /\
    GInv ki (xs ++ [a]) (kgs ++ new) v'.
  Proof.
    intros [[GV [OC OF]] HI]. rewrite app_length. cbn [length]. replace (ki + (length xs + 1)) with (S (ki + length xs)) by lia.
    pose proof (Hby (ki + length xs) (pl a)) as HB1. unfold p_sample, GInv. rewrite classified_snoc.
    destruct (cls (ki + length xs) (pl a)) as [k|].
    - assert (E : exists m, kf w (ki + length xs) (pl a) = UOk (k, m) /\ gb_size fixed m = Some (size k)).
      { destruct HB1 as [[-> ->]|[-> ->]]; eexists; split; reflexivity. }
      destruct E as (m & -> & ->). destruct (p_add_spec k a GV) as (v' & j & -> & GV' & WF & N & W). unfold p_len. rewrite N.
      assert (OF' : map fst v' = first_seen keq (map fst (classified cls ki xs ++ [(k, a)]))).
      { rewrite map_app. cbn [map fst]. rewrite first_seen_snoc, <- OF. exact WF. }
      assert (LM : exists m0, length (of_key keq k (classified cls ki xs)) = m0 * size k + length (wait k v)).
      { destruct (HI k) as (I1 & I2 & _). exists (length (of_key keq k kgs)). rewrite I1, app_length. f_equal. clear - I2.
        induction (of_key keq k kgs) as [|g gs IHg]; [reflexivity|]. cbn [concat length]. rewrite app_length, (Forall_inv I2), (IHg (Forall_inv_tail I2)). lia. }
      destruct LM as [m0 LM].
      destruct (size k <=? length (wait k v ++ [a])) eqn:L.
      + apply Nat.leb_le in L. cbn [p_flush]. rewrite N. destruct GV' as [ND' FS']. destruct (wait_upd [] ND' N) as [E1 E2].
        exists [(k, wait k v ++ [a])], (upd v' j (k, (size k, []))). cbn [fst snd length map group_batches].
        split; [rewrite Nat.add_1_r; reflexivity|]. pose proof (@Hf bi (map pl (wait k v ++ [a]))) as HF1.
        split; [destruct (f w bi (map pl (wait k v ++ [a]))); [reflexivity..|congruence]|].
        split; [rewrite app_nil_r; destruct (f w bi (map pl (wait k v ++ [a]))); [|reflexivity..]; unfold group_key; rewrite map_map; reflexivity|].
        split; [split; [split; [rewrite E1; exact ND'|apply Forall_upd; [exact FS'|reflexivity]]|split; [|rewrite E1; exact OF']]|].
        { rewrite OC, completed_snoc. f_equal. cbn zeta. destruct (HI k) as (I1 & I2 & I3). pose proof (Hsz k) as Z.
          assert (LW : length (wait k v) = size k - 1) by (rewrite app_length in L; cbn [length] in L; lia).
          rewrite app_length, LM, LW. cbn [length].
          replace (m0 * size k + (size k - 1) + 1) with ((m0 + 1) * size k) by lia.
          rewrite Nat.mod_mul by lia. cbn [Nat.eqb]. do 2 f_equal. replace ((m0 + 1) * size k - size k) with (m0 * size k) by lia.
          rewrite I1, <- app_assoc. symmetry. replace (m0 * size k) with (length (concat (of_key keq k kgs))).
          - rewrite skipn_app, skipn_all, Nat.sub_diag. reflexivity.
          - rewrite I1, app_length in LM. lia. }
        intros k'. destruct (HI k') as (I1 & I2 & I3). rewrite !of_key_app, !of_key_one, E2, W. destruct (keq k k') eqn:E.
        * apply Hkeq in E. subst k'. rewrite I1, concat_app. cbn [concat]. rewrite !app_nil_r, <- app_assoc. split; [reflexivity|].
          split; [|apply Hsz]. apply Forall_app. split; [exact I2|]. repeat constructor. rewrite app_length in *. cbn [length] in *. lia.
        * rewrite !app_nil_r. auto.
      + apply Nat.leb_gt in L. exists [], v'. cbn [fst snd length map group_batches is_raise obs]. rewrite Nat.add_0_r, app_nil_r. repeat split; try reflexivity; try apply GV'; try exact OF'.
        * rewrite completed_snoc, <- OC. cbn zeta. destruct (HI k) as (I1 & I2 & I3). rewrite app_length in L. rewrite app_length, LM. cbn [length] in *.
          replace (m0 * size k + length (wait k v) + 1) with (length (wait k v) + 1 + m0 * size k) by lia.
          rewrite Nat.mod_add, Nat.mod_small by lia. replace (length (wait k v) + 1 =? 0) with false by (symmetry; apply Nat.eqb_neq; lia).
          rewrite app_nil_r. reflexivity.
        * destruct (HI k0) as (I1 & I2 & I3). rewrite of_key_app, of_key_one, W. destruct (keq k k0) eqn:E; [|rewrite app_nil_r; exact I1].
          apply Hkeq in E. subst k0. rewrite I1, <- app_assoc. reflexivity.
        * apply (HI k0).
        * rewrite W. destruct (keq k k0) eqn:E; [|apply (HI k0)]. apply Hkeq in E. subst k0. exact L.
    - exists [], v. cbn [length map group_batches]. rewrite Nat.add_0_r, !app_nil_r.
      destruct HB1 as [-> | ->]; cbn [fst snd is_raise obs]; repeat split; auto; try apply GV; apply HI.
  Qed.

  Notation ev := (gb_events keq fixed drop_last kf f w).

  Lemma gb_app (h : nat -> list A -> ures B) g1 g2 : forall i, group_batches h i (g1 ++ g2) = group_batches h i g1 ++ group_batches h (i + length g1) g2.
  Proof.
    induction g1 as [|g g1 IH]; intros i; cbn [app group_batches length]; [rewrite Nat.add_0_r; reflexivity|].
    rewrite IH, <- app_assoc. do 2 f_equal. replace (i + S (length g1)) with (S i + length g1) by lia. reflexivity.
  Qed.

  Lemma ev_run ki xs : forall xs0 kgs0 v bi l, GInv ki xs0 kgs0 v -> exists kgs v',
    ev (ki + length xs0, bi, v) (map Yield xs ++ l) =
      map Yield (group_batches (f w) bi (map snd kgs)) ++ ev (ki + length (xs0 ++ xs), bi + length kgs, v') l /\
    GInv ki (xs0 ++ xs) (kgs0 ++ kgs) v'.
  Proof.
    induction xs as [|a xs IH]; intros xs0 kgs0 v bi l G.
    - exists [], v. cbn [map group_batches length app]. rewrite Nat.add_0_r, !app_nil_r. split; [reflexivity|exact G].
    - cbn [map app gb_events]. destruct (GInv_step bi a G) as (new & v' & E1 & _ & E2 & G'). rewrite E1, E2.
      destruct (IH (xs0 ++ [a]) (kgs0 ++ new) v' (bi + length new) l G') as (kgs & v2 & E3 & G2). rewrite E3.
      exists (new ++ kgs), v2. rewrite <- !app_assoc in *. cbn [app] in *. split; [|exact G2].
      rewrite map_app, gb_app, map_app, <- app_assoc, map_length, (app_length new kgs), Nat.add_assoc. reflexivity.
  Qed.

  Definition leftover (v : ct) : list (K * list (sample A)) :=
    filter (fun p => 0 <? length (snd p)) (map (fun q => (fst q, snd (snd q))) v).

  Lemma drain_groups v : forall bi, p_drain f w bi v = map Yield (group_batches (f w) bi (map snd (leftover v))) /\ p_drained v = length (leftover v).
  Proof.
    induction v as [|[k [bs l]] v IH]; intros bi; cbn [p_drain p_drained]; [split; reflexivity|]. unfold leftover in *. cbn [map filter fst snd].
    destruct (0 <? length l); cbn [map snd group_batches length].
    - destruct (IH (S bi)) as [-> E]. split; [|rewrite E; reflexivity]. rewrite map_app. f_equal. unfold group_key. rewrite map_map. destruct (f w bi (map pl l)); reflexivity.
    - destruct (IH bi) as [-> E]. split; [reflexivity|exact E].
  Qed.

  Lemma leftover_key v k : NoDup (map fst v) -> of_key keq k (leftover v) = match wait k v with [] => [] | l => [l] end.
  Proof.
    induction v as [|[k0 [bs l]] v IH]; intros ND; [reflexivity|]. inversion_clear ND as [|? ? NI ND']. unfold leftover in *. cbn [map filter fst snd wait].
    assert (Z : k0 = k -> of_key keq k (filter (fun p : K * list (sample A) => 0 <? length (snd p)) (map (fun q => (fst q, snd (snd q))) v)) = []).
    { intros ->. rewrite IH by exact ND'. pose proof (kpos_spec v k) as KS. destruct (kpos keq k v) as [j|].
      - destruct KS as (bs' & l' & N & _). exfalso. apply NI. apply nth_error_In in N. apply (in_map fst) in N. exact N.
      - rewrite (proj2 KS). reflexivity. }
    destruct (keq k0 k) eqn:E.
    - apply Hkeq in E. specialize (Z E). subst k0. destruct l as [|a l]; [exact Z|]. change (0 <? length (a :: l)) with true. cbn iota.
      rewrite of_key_cons, keq_refl, Z. reflexivity.
    - destruct (0 <? length l); [|apply IH; exact ND']. rewrite of_key_cons, E. apply IH. exact ND'.
  Qed.

  Lemma leftover_wait v : NoDup (map fst v) -> leftover v = flat_map (fun k => match wait k v with [] => [] | r => [(k, r)] end) (map fst v).
  Proof.
    induction v as [|[k [bs l]] v IH]; intros ND; [reflexivity|]. cbn [map fst] in ND. pose proof (proj1 (NoDup_cons_iff _ _) ND) as [NI ND'].
    unfold leftover in *. cbn [map filter fst snd flat_map wait]. rewrite keq_refl.
    rewrite (@flat_map_in_ext _ _ _ (fun k0 => match wait k0 v with [] => [] | r => [(k0, r)] end)).
    - rewrite (IH ND'). destruct l; reflexivity.
    - intros x I. rewrite keq_neq; [reflexivity|]. intros ->. contradiction.
  Qed.

  Lemma GInv_part ki xs kgs v : GInv ki xs kgs v -> grouped keq cls size true ki xs kgs.
  Proof.
    intros [[GV [OC OF]] HI]. split; [|unfold in_order; rewrite app_nil_r; exact OC].
    intros k. destruct (HI k) as (I1 & I2 & I3). exists (of_key keq k kgs), (wait k v). auto.
  Qed.

  Lemma GInv_full ki xs kgs v : GInv ki xs kgs v -> grouped keq cls size false ki xs (kgs ++ leftover v).
  Proof.
    intros [[GV [OC OF]] HI]. split.
    - intros k. destruct (HI k) as (I1 & I2 & I3). exists (of_key keq k kgs), (wait k v).
      repeat (split; [assumption|]). rewrite of_key_app, (leftover_key k (proj1 GV)). destruct (wait k v); [apply app_nil_r|reflexivity].
    - unfold in_order. rewrite OC. f_equal. rewrite (leftover_wait (proj1 GV)). unfold unfinished. rewrite OF.
      apply flat_map_in_ext. intros k _. cbn zeta. destruct (HI k) as (I1 & I2 & I3). pose proof (Hsz k) as Z.
      assert (LC : exists m0, length (concat (of_key keq k kgs)) = m0 * size k).
      { exists (length (of_key keq k kgs)). clear - I2. induction (of_key keq k kgs) as [|g gs IHg]; [reflexivity|].
        cbn [concat length]. rewrite app_length, (Forall_inv I2), (IHg (Forall_inv_tail I2)). lia. }
      destruct LC as [m0 LC]. rewrite I1. set (c := concat (of_key keq k kgs)) in *. rewrite app_length, LC.
      replace ((m0 * size k + length (wait k v)) mod size k) with (length (wait k v)).
      + replace (m0 * size k + length (wait k v) - length (wait k v)) with (length c) by lia.
        rewrite skipn_app, skipn_all, Nat.sub_diag. reflexivity.
      + rewrite Nat.add_comm, Nat.mod_add, Nat.mod_small by lia. reflexivity.
  Qed.

  Theorem ev_group_batched eps xs : forall i j, group_batched keq cls (f w) size drop_last i j eps xs
    (ev (i, j, []) (concat (map epoch eps) ++ map Yield xs)).
  Proof.
    induction eps as [|e eps IH]; intros i j; cbn [map concat app].
    - destruct (@ev_run i xs [] [] [] j [] (GInv_init i)) as (kgs & v & E & G). cbn [length app] in E. rewrite Nat.add_0_r, app_nil_r in E.
      refine (eq_ind_r (fun z => group_batched keq cls (f w) size drop_last i j [] xs z) _ E). cbn [gb_events]. rewrite app_nil_r. constructor. exact (GInv_part G).
    - unfold epoch at 1. rewrite <- !app_assoc.
      destruct (@ev_run i e [] [] [] j ([Done] ++ concat (map epoch eps) ++ map Yield xs) (GInv_init i)) as (kgs & v & E & G). cbn [length app] in *. rewrite Nat.add_0_r in E.
      refine (eq_ind_r (fun z => group_batched keq cls (f w) size drop_last i j (e :: eps) xs z) _ E). cbn [gb_events]. destruct drop_last eqn:DL.
      + pose proof (@gbd_epoch A B K keq cls (f w) size drop_last i j e eps xs kgs) as C. rewrite DL in C. specialize (C _ (GInv_part G) (IH _ _)).
        unfold epoch in C. rewrite <- app_assoc in C. exact C.
      + destruct (drain_groups v (j + length kgs)) as [-> ->].
        pose proof (@gbd_epoch A B K keq cls (f w) size drop_last i j e eps xs (kgs ++ leftover v)) as C. rewrite DL in C. specialize (C _ (GInv_full G) (IH _ _)).
        unfold epoch in C. rewrite map_app, gb_app, map_app, (app_length kgs (leftover v)), Nat.add_assoc, map_length, <- !app_assoc in C. exact C.
  Qed.

  (** everything the inner dataset emits is turned into exactly these events *)
  Theorem gb_forward (D : dataset A) ins : w < nw -> clean ins -> emits w (fresh D) ins ->
    emits w (fresh (wrap (groupbatch_ds keq nw fixed drop_last repaired kf f) D)) (ev (0, 0, []) ins).
  Proof.
    intros Hw HC E. destruct (clean_inp HC) as (ins' & ->). set (T := groupbatch_ds keq nw fixed drop_last repaired kf f).
    assert (Pn : good_v []) by (split; constructor).
    assert (Ps : forall p a, good_v (snd p) -> is_raise (snd (p_sample keq fixed kf f w p a)) = false -> good_v (snd (fst (p_sample keq fixed kf f w p a))))
      by (intros p a H _; apply p_sample_good; exact H).
    pose proof (@gb_trace_ok A B K keq nw fixed drop_last repaired kf f D w Hw good_v Pn Ps (fun j p => @p_flush_good j p)) as TR.
    assert (P : trace_progress (T := T) D w (gb_J (keq:=keq) (nw:=nw) (fixed:=fixed) (drop_last:=drop_last) (repaired:=repaired) (kf:=kf) (f:=f) w good_v) (fun x => match snd x with GStart => 1 | GLoop => 0 | GFlush j => 2 + (length (gb_at w (fst x)) - j) end)).
    { intros i o b [oo gg] (p & HPv & H & _). cbn [fst snd] in H. unfold act. unfold T. cbn [fst snd groupbatch_ds t_act]. destruct gg as [| |j].
      - destruct H as [Ep H]. assert (HF : Forall (okq (ds_restore_sample D w)) (snd p)) by (rewrite Ep; constructor).
        destruct (start_holds kf f Hw (bview_eview H) HF) as (bks & -> & _). split; [reflexivity|]. cbn. lia.
      - intros [a|].
        + destruct (sample_holds keq fixed kf f Hw a H) as (o1 & -> & _). apply (@p_sample_good p a HPv).
        + destruct drop_last; reflexivity.
      - destruct H as [_ H]. destruct p as [[ki bi] v]. pose proof H as (HS & H4 & H5 & H6).
        pose proof (Forall2_nth_error j H6) as N. destruct (nth_error (gb_at w oo) j) as [[k [bs bf]]|] eqn:NE; destruct (nth_error v j) as [[k2 [bs2 l]]|] eqn:NV; try contradiction.
        + assert (LJ : j < length (gb_at w oo)) by (apply nth_error_Some; congruence).
          destruct (0 <? buf_len w bf); [|split; [reflexivity|]; cbn [after fst snd]; lia].
          destruct (flush_holds keq kf f Hw j (GFlush (S j)) H H6) as (o1 & E1 & H'). rewrite E1.
          assert (R : is_raise (snd (p_flush f w j (ki, bi, v))) = false).
          { cbn [p_flush]. rewrite NV. cbn [snd]. pose proof (@Hf bi (map pl l)) as HF1. destruct (f w bi _); [reflexivity..|congruence]. }
          split; [exact R|]. specialize (H' R).
          assert (L1 : length (gb_at w o1) = length (gb_at w oo)).
          { cbn [p_flush] in H'. rewrite NV in H'. cbn [fst holds] in H'. destruct H' as (_ & _ & _ & F2). rewrite (Forall2_len F2), upd_length, <- (Forall2_len H6). reflexivity. }
          cbn [after]. match goal with |- context [match ?e with Yield _ => _ | Tau => _ | Done => _ | Raise _ => _ end] => destruct e end; cbn [fst snd groupbatch_ds t_iter]; lia.
        + split; [reflexivity|]. cbn. lia. }
    destruct (@wrap_forward _ _ T D w _ TR _ P (fresh (wrap T D)) true ins' (@gb_J_init A B K keq nw fixed drop_last repaired kf f w good_v Pn) (@fresh_it_ok _ _ T D true) E)
      as (outs & b & l & E1 & (p & _ & J0 & J1) & Pl).
    specialize (J1 []). rewrite app_nil_r in J1. rewrite J1. destruct l as [o g]. unfold pulls, act, T in Pl. cbn [fst snd groupbatch_ds t_act] in Pl, J0.
    unfold gb_rest. cbn [snd]. destruct g as [| |j].
    - destruct J0 as [Ep J0]. destruct (gb_start (ds_restore_sample D w) w (gb_at w o)); destruct Pl.
    - cbn [gb_events]. rewrite app_nil_r. exact E1.
    - destruct (nth_error (gb_at w o) j) as [[? [? bf]]|]; [|destruct Pl]. destruct (0 <? buf_len w bf); [|destruct Pl].
      destruct (gb_flush f w j (gb_at w o) o (GFlush (S j))) as [[? ?] ?]. destruct Pl.
  Qed.
End GB2.
