(** C73: `energon info` reports the right numbers. *)
From Coq Require Import String Ascii QArith Permutation Lqa.
From Verif Require Import Base Files Tar Split SplitSpec SplitProofs Info.
Local Open Scope string_scope.
Local Open Scope list_scope.
Local Close Scope Q_scope.
Local Open Scope nat_scope.

(** * Specification *)

(** how many bytes a unit stands for *)
Inductive unit_bytes : string -> Z -> Prop :=
| u_b : unit_bytes "B" 1
| u_k : unit_bytes "KiB" (1024 ^ 1)
| u_m : unit_bytes "MiB" (1024 ^ 2)
| u_g : unit_bytes "GiB" (1024 ^ 3)
| u_t : unit_bytes "TiB" (1024 ^ 4).

(** the split parts contain every counted shard once, and nothing else *)
Definition partition (counts : list (string * nat)) (parts : list (string * list string)) : Prop :=
  NoDup (map fst counts) /\ Permutation (concat (map snd parts)) (map fst counts).

(** train, val, test come first, in this order; the others follow in the order of the file *)
Definition position (name : string) (k : nat) : Prop :=
  (name = "train" /\ k = 0) \/ (name = "val" /\ k = 1) \/ (name = "test" /\ k = 2) \/
  (name <> "train" /\ name <> "val" /\ name <> "test" /\ k = 3).

(** * Sizes *)

Definition scale (j : nat) : Q := inject_Z (1024 ^ Z.of_nat j).
Lemma scale_S j : (scale (S j) == (1024 # 1) * scale j)%Q.
Proof.
  unfold scale. rewrite Nat2Z.inj_succ, Z.pow_succ_r by lia. rewrite inject_Z_mult. reflexivity.
Qed.

Lemma fmt_loop_spec keys : forall q, (0 <= q)%Q ->
  (exists j, nth_error keys j = Some (snd (fmt_loop keys q)) /\ (fst (fmt_loop keys q) * scale j == q)%Q /\
             (fst (fmt_loop keys q) < 1024 # 1)%Q /\ (j = 0 \/ (1 <= fst (fmt_loop keys q))%Q)) \/
  (snd (fmt_loop keys q) = "TiB" /\ (fst (fmt_loop keys q) * scale (List.length keys) == q)%Q /\ (keys <> [] -> (1 <= fst (fmt_loop keys q))%Q)).
Proof.
  induction keys as [|k keys IH]; intros q Hq.
  - right. cbn [fmt_loop fst snd List.length]. split; [reflexivity|]. split; [unfold scale; cbn; ring|intros N; now destruct N].
  - cbn [fmt_loop]. destruct (q ?= 1024 # 1)%Q eqn:E.
    2: { left. exists 0. cbn [nth_error fst snd]. split; [reflexivity|]. split; [unfold scale; cbn; ring|]. split; [|auto]. apply Qlt_alt. exact E. }
    all: assert (G : ((1024 # 1) <= q)%Q) by (apply Qnot_lt_le; intros H; pose proof (proj1 (Qlt_alt _ _) H) as H'; rewrite H' in E; discriminate E).
    all: assert (P : (1 <= q / (1024 # 1))%Q) by (apply Qle_shift_div_l; [reflexivity|]; rewrite Qmult_1_l; exact G).
    all: assert (P0 : (0 <= q / (1024 # 1))%Q) by (eapply Qle_trans; [|exact P]; discriminate).
    all: destruct (IH (q / (1024 # 1))%Q P0) as [(j & A & B & C & D)|(A & B & C)].
    all: match goal with
         | _ : nth_error _ _ = _ |- _ =>
             left; exists (S j); cbn [nth_error]; split; [exact A|]; split; [rewrite scale_S; rewrite Qmult_assoc, (Qmult_comm _ (1024 # 1)), <- Qmult_assoc, B; field|];
             split; [exact C|]; right; destruct D as [-> | D]; [|exact D]; revert B; unfold scale; change (inject_Z (1024 ^ Z.of_nat 0)) with (1#1)%Q; rewrite Qmult_1_r; intros ->; exact P
         | _ =>
             right; cbn [List.length]; split; [exact A|]; split; [rewrite scale_S; rewrite Qmult_assoc, (Qmult_comm _ (1024 # 1)), <- Qmult_assoc, B; field|];
             intros _; destruct keys as [|k' keys']; [cbn [fmt_loop fst]; exact P|apply C; discriminate]
         end.
Qed.

(** Below 1024 TiB, number times unit is the size, the number is below 1024, and it is at least 1 unless the size is given in bytes *)
Theorem C73_size n : (0 <= n < 1024 ^ 5)%Z ->
  exists v u b, fmt_size n = (v, u) /\ unit_bytes u b /\ (v * inject_Z b == inject_Z n)%Q /\ (v < 1024 # 1)%Q /\ (u = "B" \/ (1 <= v)%Q).
Proof.
  intros [H0 H1]. unfold fmt_size. assert (HQ : (0 <= inject_Z n)%Q) by (rewrite <- (Zle_Qle 0); exact H0).
  destruct (fmt_loop_spec ["B"; "KiB"; "MiB"; "GiB"; "TiB"] HQ) as [(j & A & B & C & D)|(A & B & C)];
    destruct (fmt_loop _ (inject_Z n)) as [v u]; cbn [fst snd] in *.
  - exists v, u. destruct j as [|[|[|[|[|j]]]]]; cbn [nth_error] in A.
    1-5: injection A as <-; eexists; (split; [reflexivity|]); (split; [constructor|]); (split; [exact B|]); (split; [exact C|]); destruct D as [D|D]; [discriminate D || auto|auto].
    destruct j; discriminate.
  - exfalso. assert (V : (1 <= v)%Q) by (apply C; discriminate). unfold scale in B. cbn [List.length] in B. change (Z.of_nat 5) with 5%Z in B.
    rewrite Zlt_Qlt in H1. rewrite <- B in H1. revert H1. apply Qle_not_lt. rewrite <- (Qmult_1_l (inject_Z (1024 ^ 5))) at 1.
    apply Qmult_le_compat_r; [exact V|discriminate].
Qed.
Print Assumptions C73_size.

(** From 1024 TiB on the number is given in PiB but called TiB: it is wrong by a factor of 1024 *)
Theorem C73_size_refuted n : (1024 ^ 5 <= n)%Z ->
  exists v, fmt_size n = (v, "TiB") /\ (v * inject_Z (1024 ^ 4) * (1024 # 1) == inject_Z n)%Q.
Proof.
  intros H. unfold fmt_size. assert (HQ : (0 <= inject_Z n)%Q) by (rewrite <- (Zle_Qle 0); lia).
  destruct (fmt_loop_spec ["B"; "KiB"; "MiB"; "GiB"; "TiB"] HQ) as [(j & A & B & C & D)|(A & B & C)];
    destruct (fmt_loop _ (inject_Z n)) as [v u]; cbn [fst snd] in *.
  - exfalso. assert (J : j < 5).
    { apply Nat.lt_le_trans with (List.length ["B"; "KiB"; "MiB"; "GiB"; "TiB"]); [|reflexivity]. apply nth_error_Some. congruence. }
    assert (S5 : (scale j <= scale 4)%Q). { unfold scale. rewrite <- Zle_Qle. apply Z.pow_le_mono_r; lia. }
    assert (SP : (0 < scale j)%Q). { unfold scale. rewrite <- (Zlt_Qlt 0). apply Z.pow_pos_nonneg; lia. }
    rewrite Zle_Qle in H. rewrite <- B in H. revert H. apply Qlt_not_le.
    apply Qlt_le_trans with ((1024 # 1) * scale j)%Q; [apply Qmult_lt_compat_r; assumption|].
    apply Qle_trans with ((1024 # 1) * scale 4)%Q; [|discriminate].
    rewrite !(Qmult_comm (1024 # 1)). apply Qmult_le_compat_r; [exact S5|discriminate].
  - subst u. exists v. split; [reflexivity|]. rewrite <- B. cbn [List.length]. rewrite scale_S. unfold scale. change (Z.of_nat 4) with 4%Z. ring.
Qed.
Print Assumptions C73_size_refuted.

(** * Counts *)

Lemma list_sum_perm l l' : Permutation l l' -> list_sum l = list_sum l'.
Proof. induction 1; cbn [list_sum fold_right] in *; unfold list_sum in *; cbn [fold_right] in *; lia. Qed.

Definition look (counts : list (string * nat)) (s : string) : nat := match lookup s counts with Some c => c | None => 0 end.

Lemma count_of_ok counts shards : (forall s, In s shards -> exists c, lookup s counts = Some c) ->
  count_of counts shards = Ok (list_sum (map (look counts) shards)).
Proof.
  intros H. unfold count_of.
  replace (sequence _) with (Ok (map (look counts) shards)); [reflexivity|]. symmetry.
  induction shards as [|s l IH]; [reflexivity|]. cbn [map sequence]. unfold look at 1. destruct (H s (or_introl eq_refl)) as [c ->].
  rewrite IH by (intros; apply H; now right). reflexivity.
Qed.

Lemma count_of_inv counts shards n : count_of counts shards = Ok n ->
  (forall s, In s shards -> exists c, lookup s counts = Some c) /\ n = list_sum (map (look counts) shards).
Proof.
  intros H. assert (K : forall s, In s shards -> exists c, lookup s counts = Some c).
  { revert H. unfold count_of. revert n. induction shards as [|s l IH]; intros n H x I; [destruct I|]. cbn [map sequence] in H.
    destruct (lookup s counts) as [c|] eqn:E; [|discriminate].
    destruct I as [<- |I]; [eauto|]. destruct (sequence _) as [r|] eqn:ES; [|discriminate]. eapply (IH (list_sum r)); [reflexivity|exact I]. }
  split; [exact K|]. rewrite (count_of_ok K) in H. congruence.
Qed.

Lemma seq_ok {A B} (f : A -> result B) (g : A -> B) l : (forall x, In x l -> f x = Ok (g x)) -> sequence (map f l) = Ok (map g l).
Proof.
  induction l as [|x l IH]; intros H; [reflexivity|]. cbn [map sequence]. rewrite H by (now left). rewrite IH by (intros; apply H; now right). reflexivity.
Qed.
Lemma seq_inv {A B} (f : A -> result B) l r : sequence (map f l) = Ok r -> Forall2 (fun x y => f x = Ok y) l r.
Proof.
  revert r. induction l as [|x l IH]; intros r; cbn [map sequence]; [intros [= <-]; constructor|].
  destruct (f x) eqn:E; [|discriminate]. destruct (sequence (map f l)); [|discriminate]. intros [= <-]. constructor; auto.
Qed.

Lemma srt_key_position name : position name (srt_key name).
Proof.
  unfold position, srt_key. destruct (String.eqb name "train") eqn:E1; [apply String.eqb_eq in E1; auto|].
  destruct (String.eqb name "val") eqn:E2; [apply String.eqb_eq in E2; auto|].
  destruct (String.eqb name "test") eqn:E3; [apply String.eqb_eq in E3; auto 10|].
  apply String.eqb_neq in E1, E2, E3. right. right. right. auto.
Qed.
Lemma srt_key_lt name : srt_key name < 4.
Proof. destruct (srt_key_position name) as [[_ ->]|[[_ ->]|[[_ ->]|(_ & _ & _ & ->)]]]; lia. Qed.

Lemma buckets_perm {A} (key : A -> nat) l n : (forall x, In x l -> key x < n) ->
  Permutation (flat_map (fun k => filter (fun x => key x =? k) l) (seq 0 n)) l.
Proof.
  revert l. induction n as [|n IH]; intros l H.
  - destruct l as [|x l]; [reflexivity|]. specialize (H x (or_introl eq_refl)). lia.
  - rewrite seq_S, flat_map_app. cbn [flat_map Nat.add]. rewrite app_nil_r.
    assert (E : flat_map (fun k => filter (fun x => key x =? k) l) (seq 0 n) =
                flat_map (fun k => filter (fun x => key x =? k) (filter (fun x => negb (key x =? n)) l)) (seq 0 n)).
    { assert (G : forall ks, (forall k, In k ks -> k < n) -> flat_map (fun k => filter (fun x => key x =? k) l) ks =
                flat_map (fun k => filter (fun x => key x =? k) (filter (fun x => negb (key x =? n)) l)) ks).
      { induction ks as [|k ks IHk]; intros Hk; [reflexivity|]. cbn [flat_map]. rewrite IHk by (intros; apply Hk; now right). f_equal.
        assert (k < n) by (apply Hk; now left). clear - H0. induction l as [|x l IH]; [reflexivity|]. cbn [filter].
        destruct (key x =? k) eqn:E1, (key x =? n) eqn:E2; cbn [negb filter]; rewrite ?E1, ?IH; try reflexivity.
        apply Nat.eqb_eq in E1, E2. lia. }
      apply G. intros k Hk. apply in_seq in Hk. lia. }
    rewrite E, IH.
    + clear. induction l as [|x l IH]; [reflexivity|]. cbn [filter]. destruct (key x =? n); cbn [negb].
      * rewrite <- Permutation_middle. constructor. exact IH.
      * cbn [app]. constructor. exact IH.
    + intros x I. apply filter_In in I. destruct I as [I N]. specialize (H x I). apply negb_true_iff, Nat.eqb_neq in N. lia.
Qed.

Lemma sort_parts_perm parts : Permutation (sort_parts parts) parts.
Proof. apply (@buckets_perm _ (fun p : string * list string => srt_key (fst p)) parts 4). intros x _. apply srt_key_lt. Qed.

(** the parts are listed in the order train, val, test, others, and otherwise as in split.yaml *)
Theorem C73_order counts parts sizes r : info counts parts sizes = Ok r ->
  exists sorted, map ln_name (ir_lines r) = map fst sorted /\ Permutation sorted parts /\
    exists t v e o, sorted = t ++ v ++ e ++ o /\
      kept (fun p => fst p = "train") parts t /\ kept (fun p => fst p = "val") parts v /\ kept (fun p => fst p = "test") parts e /\
      kept (fun p => fst p <> "train" /\ fst p <> "val" /\ fst p <> "test") parts o.
Proof.
  unfold info. destruct (sequence _) as [lines|] eqn:E; cbn [bind]; [|discriminate]. intros [= <-]. cbn [ir_lines].
  exists (sort_parts parts). split.
  { apply seq_inv in E. induction E as [|p ln l l' H _ IH]; [reflexivity|]. cbn [map]. f_equal; [|exact IH].
    unfold line_of in H. destruct (count_of _ _); cbn [bind] in H; [|discriminate]. destruct (_ =? 0); [discriminate|]. injection H as <-. reflexivity. }
  split; [apply sort_parts_perm|].
  assert (K : forall (f : string * list string -> bool) (P : string * list string -> Prop) l, (forall x, f x = true <-> P x) -> kept P l (filter f l)).
  { intros f P l HP. induction l as [|x l IH]; [constructor|]. cbn [filter]. destruct (f x) eqn:F; [apply kept_take|apply kept_drop]; auto.
    - apply HP. exact F.
    - intros H. apply HP in H. congruence. }
  unfold sort_parts. cbn [seq flat_map]. rewrite app_nil_r. eexists _, _, _, _. split; [reflexivity|].
  repeat split; apply K; intros [n l]; cbn [fst]; rewrite Nat.eqb_eq; destruct (srt_key_position n) as [[-> ->]|[[-> ->]|[[-> ->]|(N1 & N2 & N3 & ->)]]];
    split; intros H; try lia; try congruence; try (repeat split; congruence); try (destruct H as (H1 & H2 & H3); congruence).
Qed.
Print Assumptions C73_order.

(** every line gives the number of samples of the shards listed for it, and their share of the total *)
Theorem C73_line counts parts sizes r ln : NoDup (map fst counts) -> info counts parts sizes = Ok r -> In ln (ir_lines r) ->
  exists shards cs, In (ln_name ln, shards) parts /\ Forall2 (fun s c => In (s, c) counts) shards cs /\
    ln_samples ln = list_sum cs /\ ln_shards ln = List.length shards /\
    (ln_percent ln * inject_Z (Z.of_nat (ir_samples r)) == (100 # 1) * inject_Z (Z.of_nat (ln_samples ln)))%Q /\
    ir_samples r = list_sum (map snd counts) /\ ir_shards r = List.length counts.
Proof.
  intros ND. unfold info. destruct (sequence _) as [lines|] eqn:E; cbn [bind]; [|discriminate]. intros [= <-]. cbn [ir_lines ir_samples ir_shards].
  intros I. apply seq_inv in E.
  assert (G : exists p, In p (sort_parts parts) /\ line_of counts (list_sum (map snd counts)) p = Ok ln).
  { clear ND. induction E as [|p l0 l l' H _ IH]; [destruct I|]. destruct I as [-> |I]; [exists p; split; [now left|exact H]|].
    destruct (IH I) as (q & Q1 & Q2). exists q. split; [now right|exact Q2]. }
  destruct G as ([name shards] & G1 & G2). eapply Permutation_in in G1; [|apply sort_parts_perm].
  unfold line_of in G2. cbn [fst snd] in G2. destruct (count_of counts shards) as [n|] eqn:EC; cbn [bind] in G2; [|discriminate].
  destruct (list_sum (map snd counts) =? 0) eqn:EZ; [discriminate|]. injection G2 as <-. cbn [ln_name ln_samples ln_shards ln_percent].
  apply count_of_inv in EC. destruct EC as [K ->]. exists shards, (map (look counts) shards). split; [exact G1|]. split.
  { clear - K. induction shards as [|s l IH]; [constructor|]. cbn [map]. constructor.
    - unfold look. destruct (K s (or_introl eq_refl)) as [c Hc]. rewrite Hc. apply lookup_in. exact Hc.
    - apply IH. intros; apply K; now right. }
  split; [reflexivity|]. split; [reflexivity|]. split; [|auto]. apply Nat.eqb_neq in EZ. field. change 0%Q with (inject_Z 0).
  intros H. pose proof (proj1 (inject_Z_injective _ _) H). lia.
Qed.
Print Assumptions C73_line.

(** the printed size is that of all counted shard files together *)
Theorem C73_report_size counts parts sizes r : info counts parts sizes = Ok r ->
  (0 <= zsum (map (fun p => sizes (fst p)) counts) < 1024 ^ 5)%Z ->
  exists b, unit_bytes (snd (ir_size r)) b /\ (fst (ir_size r) * inject_Z b == inject_Z (zsum (map sizes (map fst counts))))%Q.
Proof.
  unfold info. destruct (sequence _) as [lines|]; cbn [bind]; [|discriminate]. intros [= <-] H. cbn [ir_size].
  destruct (C73_size H) as (v & u & b & E & U & V & _). rewrite E. cbn [fst snd]. exists b. split; [exact U|]. rewrite map_map. exact V.
Qed.
Print Assumptions C73_report_size.

Lemma look_keys counts : NoDup (map fst counts) -> map (look counts) (map fst counts) = map snd counts.
Proof.
  induction counts as [|[k c] l IH]; intros H; [reflexivity|]. inversion H as [|? ? N H']; subst. cbn [map fst snd].
  unfold look at 1. cbn [lookup]. unfold seqb. rewrite String.eqb_refl. f_equal. rewrite <- IH by exact H'. rewrite !map_map. apply map_ext_in.
  intros [k' c'] I. cbn [fst]. unfold look. cbn [lookup]. unfold seqb. destruct (String.eqb k k') eqn:E; [|reflexivity].
  apply String.eqb_eq in E. subst. exfalso. apply N. apply in_map_iff. exists (k', c'). auto.
Qed.

Lemma lookup_key counts s : In s (map fst counts) -> exists c : nat, lookup s counts = Some c.
Proof.
  induction counts as [|[k c] l IH]; intros I; [destruct I|]. cbn [lookup]. unfold seqb. destruct (String.eqb k s) eqn:E; [eauto|].
  destruct I as [I|I]; [cbn in I; subst; rewrite String.eqb_refl in E; discriminate|auto].
Qed.

(** If the split parts partition the shards, the report exists, and samples, shards and percentages of the parts add up *)
Theorem C73_adds_up counts parts sizes : partition counts parts -> list_sum (map snd counts) <> 0 ->
  exists r, info counts parts sizes = Ok r /\
    list_sum (map ln_samples (ir_lines r)) = ir_samples r /\ list_sum (map ln_shards (ir_lines r)) = ir_shards r /\
    (fold_right Qplus 0 (map ln_percent (ir_lines r)) == 100 # 1)%Q.
Proof.
  intros [ND P] NZ. set (total := list_sum (map snd counts)) in *.
  assert (KN : forall p s, In p parts -> In s (snd p) -> exists c, lookup s counts = Some c).
  { intros p s I1 I2. apply lookup_key. eapply Permutation_in; [exact P|]. apply in_concat. exists (snd p). split; [|exact I2].
    apply in_map. exact I1. }
  set (mk := fun p : string * list string => mkLine (fst p)
     ((100 # 1) * inject_Z (Z.of_nat (list_sum (map (look counts) (snd p)))) / inject_Z (Z.of_nat total))%Q
     (list_sum (map (look counts) (snd p))) (List.length (snd p))).
  assert (E : sequence (map (line_of counts total) (sort_parts parts)) = Ok (map mk (sort_parts parts))).
  { apply seq_ok. intros p I. unfold line_of. rewrite count_of_ok.
    - cbn [bind]. destruct (total =? 0) eqn:EZ; [apply Nat.eqb_eq in EZ; congruence|]. reflexivity.
    - intros s Is. eapply KN; [|exact Is]. eapply Permutation_in; [apply sort_parts_perm|exact I]. }
  unfold info. fold total. rewrite E. cbn [bind]. eexists. split; [reflexivity|]. cbn [ir_lines ir_samples ir_shards].
  assert (LS : forall l : list (string * list string), list_sum (map ln_samples (map mk l)) = list_sum (map (look counts) (concat (map snd l)))).
  { induction l as [|p l IH]; [reflexivity|]. cbn [map concat]. rewrite map_app, list_sum_app, <- IH. reflexivity. }
  assert (LL : forall l : list (string * list string), list_sum (map ln_shards (map mk l)) = List.length (concat (map snd l))).
  { induction l as [|p l IH]; [reflexivity|]. cbn [map concat]. rewrite app_length, <- IH. reflexivity. }
  assert (PP : Permutation (concat (map snd (sort_parts parts))) (map fst counts)).
  { rewrite <- P. rewrite <- !flat_map_concat_map. apply Permutation_flat_map. apply sort_parts_perm. }
  assert (TS : list_sum (map ln_samples (map mk (sort_parts parts))) = total).
  { rewrite LS. rewrite (list_sum_perm (Permutation_map (look counts) PP)). rewrite look_keys by exact ND. reflexivity. }
  split; [exact TS|]. split.
  { rewrite LL. rewrite (Permutation_length PP). apply map_length. }
  assert (PQ : forall l : list (string * list string), (fold_right Qplus 0 (map ln_percent (map mk l)) ==
                 (100 # 1) * inject_Z (Z.of_nat (list_sum (map ln_samples (map mk l)))) / inject_Z (Z.of_nat total))%Q).
  { assert (ZN : ~ (inject_Z (Z.of_nat total) == 0)%Q). { change 0%Q with (inject_Z 0). intros H. pose proof (proj1 (inject_Z_injective _ _) H). lia. }
    induction l as [|p l IH]; cbn [map fold_right].
    - unfold list_sum. cbn [fold_right]. field. exact ZN.
    - rewrite IH. unfold list_sum. cbn [fold_right]. fold (list_sum (map ln_samples (map mk l))).
      rewrite Nat2Z.inj_add, inject_Z_plus. cbn [mk ln_percent ln_samples]. field. exact ZN. }
  rewrite PQ, TS. field. change 0%Q with (inject_Z 0). intros H. pose proof (proj1 (inject_Z_injective _ _) H). lia.
Qed.
Print Assumptions C73_adds_up.

(** * Agreement with what the loader loads *)

(** Without an exclude list and without patterns, the numbers of a part are those of the dataset that is loaded for it *)
Theorem C73_agrees_with_loader be counts sp sizes r part m :
  NoDup (map fst (sp_parts sp)) -> sp_exclude sp = [] -> (forall p n, In p (sp_parts sp) -> In n (snd p) -> be n = Ok [n]) ->
  info counts (sp_parts sp) sizes = Ok r -> from_config be counts sp part = MOk m ->
  exists ln, In ln (ir_lines r) /\ ln_name ln = part /\ ln_samples ln = ds_len m /\ ln_shards ln = List.length (mt_shards m).
Proof.
  intros ND EX BE HI HF. destruct (@from_config_inv be counts sp part) as (patterns & ex & names & I & E1 & E2).
  { intros e. rewrite HF. discriminate. }
  rewrite (from_config_cases counts ND I E1 E2) in HF. cbv zeta in HF.
  rewrite EX in E1. inversion E1; subst ex. clear E1.
  assert (N : names = patterns).
  { assert (B : forall n, In n patterns -> be n = Ok [n]) by (intros n Hn; eapply BE; [exact I|exact Hn]).
    clear - E2 B. induction E2 as [|p ps ns l H _ IH]; [reflexivity|]. rewrite (B p (or_introl eq_refl)) in H. injection H as <-.
    cbn [app]. f_equal. apply IH. intros; apply B; now right. }
  subst names. replace (filter (fun n => negb (mem n [])) patterns) with patterns in HF.
  2: { clear. induction patterns as [|p l IH]; [reflexivity|]. cbn [filter mem existsb negb]. f_equal. exact IH. }
  destruct (_ =? 0); [discriminate|]. destruct (sequence (map (shard_info counts) patterns)) as [shards|] eqn:ES; [|discriminate].
  injection HF as <-. unfold ds_len. cbn [mt_shards].
  unfold info in HI. destruct (sequence (map (line_of _ _) _)) as [lines|] eqn:EL; cbn [bind] in HI; [|discriminate]. injection HI as <-. cbn [ir_lines].
  apply seq_inv in EL.
  assert (G : exists ln, In ln lines /\ line_of counts (list_sum (map snd counts)) (part, patterns) = Ok ln).
  { assert (I' : In (part, patterns) (sort_parts (sp_parts sp))) by (eapply Permutation_in; [symmetry; apply sort_parts_perm|exact I]).
    clear - I' EL. induction EL as [|p ln l l' H _ IH]; [destruct I'|]. destruct I' as [-> |I']; [exists ln; split; [now left|exact H]|].
    destruct (IH I') as (ln' & A & B). exists ln'. split; [now right|exact B]. }
  destruct G as (ln & G1 & G2). exists ln. split; [exact G1|]. unfold line_of in G2. cbn [fst snd] in G2.
  destruct (count_of counts patterns) as [n|] eqn:EC; cbn [bind] in G2; [|discriminate].
  destruct (_ =? 0); [discriminate|]. injection G2 as <-. cbn [ln_name ln_samples ln_shards].
  apply count_of_inv in EC. destruct EC as [_ ->]. split; [reflexivity|].
  assert (M : map sh_count shards = map (look counts) patterns /\ List.length shards = List.length patterns).
  { clear - ES. revert shards ES. induction patterns as [|p l IH]; cbn [map sequence]; intros shards H; [injection H as <-; auto|].
    unfold shard_info at 1 in H. destruct (lookup p counts) as [c|] eqn:E; [|discriminate].
    destruct (sequence (map (shard_info counts) l)) as [s|]; [|discriminate]. injection H as <-. destruct (IH s eq_refl) as [A B].
    cbn [map List.length sh_count]. rewrite A, B. unfold look at 2. rewrite E. auto. }
  destruct M as [-> ->]. auto.
Qed.
Print Assumptions C73_agrees_with_loader.

(** With an exclude list they are not: excluded shards are counted *)
Theorem C73_excluded_refuted : exists be counts sp r m ln,
  (forall n, be n = Ok [n]) /\ info counts (sp_parts sp) (fun _ => 0%Z) = Ok r /\ from_config be counts sp "train" = MOk m /\
  In ln (ir_lines r) /\ ln_name ln = "train" /\ ln_samples ln = 7 /\ ds_len m = 3.
Proof.
  exists (fun n => Ok [n]), [("a.tar", 3); ("b.tar", 4)], (mkSplits [("train", ["a.tar"; "b.tar"])] ["b.tar"]).
  eexists _, _, _. split; [reflexivity|]. split; [vm_compute; reflexivity|]. split; [vm_compute; reflexivity|].
  split; [left; reflexivity|]. repeat split; reflexivity.
Qed.
Print Assumptions C73_excluded_refuted.

(** and a split part given by a pattern that the loader understands makes `energon info` fail *)
Theorem C73_pattern_refuted be counts sizes m :
  be "{a,b}.tar" = Ok ["a.tar"; "b.tar"] -> counts = [("a.tar", 3); ("b.tar", 4)] ->
  from_config be counts (mkSplits [("train", ["{a,b}.tar"])] []) "train" = MOk m ->
  ds_len m = 7 /\ info counts [("train", ["{a,b}.tar"])] sizes = Err KeyError.
Proof.
  intros HB -> H. split; [|reflexivity]. unfold from_config, expand in H. cbn [sp_parts sp_exclude map sequence] in H.
  change (lookup "train" [("train", ["{a,b}.tar"])]) with (Some ["{a,b}.tar"]) in H. cbn [map sequence bind concat] in H. rewrite HB in H. vm_compute in H. injection H as <-. reflexivity.
Qed.
Print Assumptions C73_pattern_refuted.

(** a dataset without samples makes it fail as well *)
Theorem C73_no_samples_refuted sizes : info [("a.tar", 0)] [("train", ["a.tar"])] sizes = Err ZeroDivisionError.
Proof. reflexivity. Qed.
Print Assumptions C73_no_samples_refuted.

Example C73_nonvacuous : exists r, partition [("a", 3); ("b", 1); ("c", 4)] [("other", []); ("test", ["c"]); ("train", ["b"; "a"])] /\
  info [("a", 3); ("b", 1); ("c", 4)] [("other", []); ("test", ["c"]); ("train", ["b"; "a"])] (fun _ => 1024%Z) = Ok r /\
  map ln_name (ir_lines r) = ["train"; "test"; "other"] /\ map ln_samples (ir_lines r) = [4; 4; 0] /\
  snd (ir_size r) = "KiB" /\ (fst (ir_size r) == 3 # 1)%Q.
Proof.
  eexists. split; [|split; [vm_compute; reflexivity|repeat split]].
  split; [repeat (constructor; [cbn; intuition discriminate|]); constructor|].
  exact (Permutation_rev ["c"; "b"; "a"]).
Qed.
