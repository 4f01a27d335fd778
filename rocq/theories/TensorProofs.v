(** Proofs about Tensor.v *)
From Coq Require Import String.
From Verif Require Import Base Tensor TensorSpec.

Lemma list_eqb_eq a b : list_eqb a b = true <-> a = b.
Proof.
  revert b. induction a as [|x a IH]; intros [|y b]; cbn [list_eqb]; split; try discriminate; try reflexivity.
  - intros H. apply andb_true_iff in H. destruct H as [H1 H2]. apply Nat.eqb_eq in H1. apply IH in H2. congruence.
  - intros [= -> ->]. rewrite Nat.eqb_refl. cbn. apply IH. reflexivity.
Qed.

Lemma sequence_ok {A} (l : list (result A)) r : sequence l = Ok r <-> l = map Ok r.
Proof.
  revert r. induction l as [|[a|e] l IH]; intros r; cbn [sequence].
  - split; [intros [= <-]; reflexivity|destruct r; [reflexivity|discriminate]].
  - destruct (sequence l) as [r'|e] eqn:E.
    + assert (Q : l = map Ok r') by (apply IH; reflexivity). subst l. split; [intros [= <-]; reflexivity|]. destruct r as [|x r]; [discriminate|]. intros H. cbn in H. injection H as <- H.
      apply IH in H. congruence.
    + split; [discriminate|]. destruct r as [|x r]; [discriminate|]. intros H. cbn in H. injection H as <- H. apply IH in H. discriminate.
  - split; [discriminate|]. destruct r; discriminate.
Qed.
Lemma sequence_map_ok {A B} (f : A -> result B) (g : A -> B) l : (forall a, In a l -> f a = Ok (g a)) -> sequence (map f l) = Ok (map g l).
Proof. intros H. apply sequence_ok. rewrite map_map. apply map_ext_in. exact H. Qed.

Lemma list_max_In l : l <> [] -> In (list_max l) l.
Proof.
  induction l as [|x l IH]; [congruence|]. intros _. destruct l as [|y l]; [cbn; left; lia|].
  change (list_max (x :: y :: l)) with (Nat.max x (list_max (y :: l))). destruct (Nat.max_dec x (list_max (y :: l))) as [-> | ->]; [left; reflexivity|right; apply IH; discriminate].
Qed.
Lemma list_max_le_In l x : In x l -> x <= list_max l.
Proof. intros H. assert (Q := proj1 (list_max_le l (list_max l)) (le_n _)). rewrite Forall_forall in Q. auto. Qed.

Lemma Forall2_len {A B} (R : A -> B -> Prop) l l' : Forall2 R l l' -> length l = length l'.
Proof. induction 1; cbn; congruence. Qed.
Lemma Forall2_weaken {A B} (R R' : A -> B -> Prop) l l' : (forall a b, R a b -> R' a b) -> Forall2 R l l' -> Forall2 R' l l'.
Proof. induction 2; constructor; auto. Qed.

Section Proofs.
  Context {T A : Type} (cast : T -> A -> A) (zero : T -> A).
  Notation tensor := (tensor T A).

  Lemma dim_ok d (b : tensor) : d < length (shape b) -> dim_of d b = Ok (nth d (shape b) 0).
  Proof. intros H. unfold dim_of. destruct (nth_error (shape b) d) eqn:E; [|apply nth_error_None in E; lia]. rewrite (nth_error_nth _ _ _ E). reflexivity. Qed.

  Lemma max_dims_ok dims (batch : list tensor) : (forall d b, In d dims -> In b batch -> d < length (shape b)) ->
    max_dims dims batch = Ok (map (fun d => list_max (map (fun b => nth d (shape b) 0) batch)) dims).
  Proof.
    intros H. unfold max_dims. apply sequence_map_ok. intros d Id. rewrite (sequence_map_ok (g := fun b => nth d (shape b) 0)); [reflexivity|].
    intros b Ib. apply dim_ok. auto.
  Qed.
  Lemma max_dims_inv dims (batch : list tensor) ms : max_dims dims batch = Ok ms -> forall d b, In d dims -> In b batch -> d < length (shape b).
  Proof.
    unfold max_dims. intros H d b Id Ib. apply sequence_ok in H.
    assert (Q : In (bind (sequence (map (dim_of d) batch)) (fun l => Ok (list_max l))) (map Ok ms)) by (rewrite <- H; apply in_map_iff; eauto).
    apply in_map_iff in Q. destruct Q as (x & E & _). destruct (sequence (map (dim_of d) batch)) as [l|] eqn:ES; [|discriminate].
    apply sequence_ok in ES. assert (Q : In (dim_of d b) (map Ok l)) by (rewrite <- ES; apply in_map_iff; eauto).
    apply in_map_iff in Q. destruct Q as (y & E2 & _). unfold dim_of in E2. destruct (nth_error (shape b) d) eqn:EN; [|discriminate].
    apply nth_error_Some. congruence.
  Qed.

  Lemma maxes_bounding (shs : list (list nat)) n k : shs <> [] ->
    bounding (map (skipn k) shs) n (map (fun d => list_max (map (fun s => nth d s 0) shs)) (seq k n)).
  Proof.
    intros HN. split; [rewrite map_length, seq_length; reflexivity|]. intros d Hd.
    assert (E : nth d (map (fun d => list_max (map (fun s => nth d s 0) shs)) (seq k n)) 0 = list_max (map (fun s => nth (k + d) s 0) shs)).
    { rewrite (nth_indep _ 0 (list_max (map (fun s => nth 0 s 0) shs))) by (rewrite map_length, seq_length; exact Hd).
      rewrite (map_nth (fun d => list_max (map (fun s => nth d s 0) shs)) (seq k n) 0 d). rewrite seq_nth by exact Hd. reflexivity. }
    assert (SK : forall s, nth d (skipn k s) 0 = nth (k + d) s 0).
    { clear. intros s. revert s. induction k as [|k IH]; intros s; [reflexivity|]. destruct s; [cbn; destruct d; reflexivity|]. cbn [skipn Nat.add nth]. apply IH. }
    rewrite E. split.
    - intros s Is. apply in_map_iff in Is. destruct Is as (s0 & <- & Is). rewrite SK. apply list_max_le_In. apply in_map_iff. eauto.
    - assert (Q : In (list_max (map (fun s => nth (k + d) s 0) shs)) (map (fun s => nth (k + d) s 0) shs)) by (apply list_max_In; destruct shs; [congruence|discriminate]).
      apply in_map_iff in Q. destruct Q as (s & E2 & Is). exists (skipn k s). split; [apply in_map_iff; eauto|]. rewrite SK. exact E2.
  Qed.

  (** a shape below a bounding one *)
  Lemma below_region s ms : Forall2 le s ms -> region (map (Slice 0) s) ms = Some s.
  Proof.
    induction 1 as [|x y s ms H F IH]; [reflexivity|]. cbn [map region]. rewrite IH. cbn [option_map]. f_equal. f_equal. rewrite Nat.min_0_l. lia.
  Qed.
  Lemma below_source s idx : length idx = length s ->
    (inside idx s -> source (map (Slice 0) s) idx = Some idx) /\ (~ inside idx s -> source (map (Slice 0) s) idx = None).
  Proof.
    revert idx. induction s as [|x s IH]; intros [|j idx] HL; try discriminate; cbn [map source].
    - split; [reflexivity|]. intros N. exfalso. apply N. constructor.
    - destruct (IH idx) as [I1 I2]; [cbn in HL; lia|]. destruct (Nat.leb_spec 0 j); [|lia]. cbn [andb]. destruct (Nat.ltb_spec j x).
      + split.
        * intros H1. inversion H1; subst. rewrite I1 by assumption. cbn. rewrite Nat.sub_0_r. reflexivity.
        * intros N. rewrite I2; [reflexivity|]. intros H1. apply N. constructor; assumption.
      + split; [|reflexivity]. intros H1. inversion H1. lia.
  Qed.
  Lemma inside_dec idx s : inside idx s \/ ~ inside idx s.
  Proof.
    revert s. induction idx as [|i idx IH]; intros [|x s]; [left; constructor|right; intros H; inversion H|right; intros H; inversion H|].
    destruct (IH s) as [H|H]; [|right; intros Q; inversion Q; contradiction]. destruct (Nat.lt_ge_cases i x); [left; constructor; assumption|right; intros Q; inversion Q; lia].
  Qed.
  Lemma inside_length idx s : inside idx s -> length idx = length s.
  Proof. induction 1; cbn; congruence. Qed.
  Lemma bounding_le shs n sh s : bounding shs n sh -> In s shs -> length s = n -> Forall2 le s sh.
  Proof.
    intros [HL HB] Is Hs. assert (HD : forall d, d < n -> nth d s 0 <= nth d sh 0) by (intros d Hd; apply HB; assumption).
    clear HB Is. revert sh HL s Hs HD. induction n as [|n IH]; intros sh HL s Hs HD.
    - destruct s; [|discriminate]. destruct sh; [constructor|discriminate].
    - destruct s as [|x s]; [discriminate|]. destruct sh as [|y sh]; [discriminate|]. constructor; [apply (HD 0); lia|].
      apply IH; [cbn in HL; lia|cbn in Hs; lia|]. intros d Hd. apply (HD (S d)). lia.
  Qed.

  (** ** stacking *)
  Lemma stack_loop_ok ms N : forall (batch : list tensor) (t : tensor) i,
    shape t = N :: ms -> i + length batch <= N -> (forall b, In b batch -> Forall2 le (shape b) ms) ->
    exists t', stack_loop cast t i batch = Ok t' /\ shape t' = N :: ms /\ dtype t' = dtype t /\
      forall j idx, length idx = length ms ->
        (j < i -> elt t' (j :: idx) = elt t (j :: idx)) /\
        forall b, nth_error batch (j - i) = Some b -> i <= j ->
          (inside idx (shape b) -> elt t' (j :: idx) = cast (dtype t) (elt b idx)) /\
          (~ inside idx (shape b) -> elt t' (j :: idx) = elt t (j :: idx)).
  Proof.
    induction batch as [|b batch IH]; intros t i Sh HN HF; cbn [stack_loop].
    - exists t. repeat split; auto; intros; destruct (j - i); discriminate.
    - assert (LB : Forall2 le (shape b) ms) by (apply HF; left; reflexivity).
      unfold assign. rewrite Sh. cbn [region]. replace (i <? N) with true by (symmetry; apply Nat.ltb_lt; cbn in HN; lia).
      rewrite below_region by exact LB. replace (list_eqb (shape b) (shape b)) with true by (symmetry; apply list_eqb_eq; reflexivity). cbn [bind].
      set (t1 := mkT (dtype t) (N :: ms) _). destruct (IH t1 (S i)) as (t' & E & S1 & D1 & H).
      + reflexivity.
      + cbn in HN. lia.
      + intros; apply HF; right; assumption.
      + exists t'. split; [exact E|]. split; [exact S1|]. split; [exact D1|]. intros j idx HL.
        assert (LS : length idx = length (shape b)) by (rewrite HL; symmetry; exact (Forall2_len LB)).
        destruct (below_source LS) as [B1 B2]. destruct (H j idx HL) as [H1 H2]. split.
        * intros Hj. rewrite H1 by lia. subst t1. cbn [elt source]. destruct (Nat.eqb_spec i j); [lia|reflexivity].
        * intros c Ec Hj. destruct (Nat.eq_dec i j) as [<-|NE].
          -- rewrite Nat.sub_diag in Ec. cbn in Ec. injection Ec as <-. rewrite H1 by lia. subst t1. cbn [elt source]. rewrite Nat.eqb_refl.
             split; intros HI; [rewrite B1 by exact HI|rewrite B2 by exact HI]; reflexivity.
          -- replace (j - i) with (S (j - S i)) in Ec by lia. cbn [nth_error] in Ec. destruct (H2 c Ec) as [Q1 Q2]; [lia|]. subst t1. cbn [dtype] in Q1. split; [exact Q1|].
             intros HI. rewrite (Q2 HI). cbn [elt source]. destruct (Nat.eqb_spec i j); [lia|reflexivity].
  Qed.

  Lemma region_too_many sels sh : length sh < length sels -> region sels sh = None.
  Proof.
    revert sh. induction sels as [|[i|a b] sels IH]; intros [|n sh] H; cbn in H; cbn [region]; try lia; try reflexivity.
    - destruct (i <? n); [apply IH; lia|reflexivity].
    - rewrite IH by lia. reflexivity.
  Qed.
  Lemma stack_loop_bad (batch : list tensor) : forall t i b, In b batch -> length (shape t) < S (length (shape b)) -> forall t', stack_loop cast t i batch <> Ok t'.
  Proof.
    induction batch as [|c batch IH]; intros t i b I HL t' H; [destruct I|]. cbn [stack_loop] in H.
    destruct (assign cast t (At i :: map (Slice 0) (shape c)) c) as [t1|] eqn:E; [|discriminate]. cbn [bind] in H. destruct I as [->|I].
    - unfold assign in E. rewrite region_too_many in E; [discriminate|]. cbn [length]. rewrite map_length. exact HL.
    - eapply IH; [exact I| |exact H]. unfold assign in E. destruct (region _ _); [|discriminate]. destruct (list_eqb _ _); [|discriminate]. injection E as <-. exact HL.
  Qed.

  Theorem pad_stack_ok (batch : list tensor) :
    ((exists t, batch_pad_stack cast zero batch = Ok t) <-> exists b0, In b0 batch /\ forall b, In b batch -> length (shape b) = length (shape b0)) /\
    forall t, batch_pad_stack cast zero batch = Ok t -> stacked cast zero batch t.
  Proof.
    assert (G : forall b0 rest, batch = b0 :: rest -> (forall b, In b batch -> length (shape b) = length (shape b0)) ->
               exists t, batch_pad_stack cast zero batch = Ok t /\ stacked cast zero batch t).
    { intros b0 rest E HL. unfold batch_pad_stack. rewrite E. rewrite <- E.
      rewrite max_dims_ok by (intros d b Id Ib; apply in_seq in Id; rewrite HL by exact Ib; lia). cbn [bind].
      assert (BD : bounding (map shape batch) (length (shape b0)) (map (fun d => list_max (map (fun b => nth d (shape b) 0) batch)) (seq 0 (length (shape b0))))).
      { pose proof (@maxes_bounding (map shape batch) (length (shape b0)) 0) as Q. rewrite map_map in Q. cbn [skipn] in Q.
        replace (map (fun x : tensor => shape x) batch) with (map shape batch) in Q by reflexivity.
        replace (map (fun d => list_max (map (fun b => nth d (shape b) 0) batch)) (seq 0 (length (shape b0)))) with
          (map (fun d => list_max (map (fun s => nth d s 0) (map shape batch))) (seq 0 (length (shape b0)))) by (apply map_ext; intros d; rewrite map_map; reflexivity).
        apply Q. rewrite E. discriminate. }
      set (sh := map _ (seq 0 _)) in *.
      destruct (@stack_loop_ok sh (length batch) batch (new_zeros zero b0 (length batch :: sh)) 0) as (t & Et & St & Dt & H).
      - reflexivity.
      - lia.
      - intros b Ib. eapply bounding_le; [exact BD|apply in_map; exact Ib|]. apply HL. exact Ib.
      - exists t. split; [exact Et|]. exists b0, rest, sh. split; [exact E|]. split; [exact Dt|]. split; [exact St|]. split; [exact BD|].
        intros i b idx Eb Hi. destruct (H i idx (inside_length Hi)) as [_ H2]. apply (H2 b); [rewrite Nat.sub_0_r; exact Eb|lia]. }
    split; [split|].
    - intros [t Ht]. destruct batch as [|b0 rest] eqn:EB; [discriminate|]. exists b0. split; [left; reflexivity|]. rewrite <- EB in *. intros b Ib.
      unfold batch_pad_stack in Ht. rewrite EB in Ht. rewrite <- EB in Ht. destruct (max_dims (seq 0 (length (shape b0))) batch) as [ms|] eqn:EM; [|discriminate]. cbn [bind] in Ht.
      assert (LM : length ms = length (shape b0)).
      { unfold max_dims in EM. apply sequence_ok in EM. apply (f_equal (@length _)) in EM. rewrite !map_length, seq_length in EM. congruence. }
      destruct (Nat.lt_trichotomy (length (shape b)) (length (shape b0))) as [L|[L|L]]; [|exact L|].
      + exfalso. assert (length (shape b) < length (shape b)); [|lia]. eapply max_dims_inv; [exact EM| |exact Ib]. apply in_seq. lia.
      + exfalso. eapply stack_loop_bad; [exact Ib| |exact Ht]. cbn [new_zeros shape length]. lia.
    - intros (b0 & I & HL). destruct batch as [|c rest] eqn:EB; [destruct I|]. rewrite <- EB in *.
      destruct (G c rest) as (t & Et & _); [exact EB| |eauto]. intros b Ib. rewrite HL by exact Ib. symmetry. apply HL. rewrite EB. left. reflexivity.
    - intros t Ht. destruct batch as [|b0 rest] eqn:EB; [discriminate|]. rewrite <- EB in *.
      destruct (G b0 rest EB) as (t2 & Et & Q); [|congruence]. intros b Ib.
      unfold batch_pad_stack in Ht. rewrite EB in Ht. rewrite <- EB in Ht. destruct (max_dims (seq 0 (length (shape b0))) batch) as [ms|] eqn:EM; [|discriminate]. cbn [bind] in Ht.
      assert (LM : length ms = length (shape b0)).
      { unfold max_dims in EM. apply sequence_ok in EM. apply (f_equal (@length _)) in EM. rewrite !map_length, seq_length in EM. congruence. }
      destruct (Nat.lt_trichotomy (length (shape b)) (length (shape b0))) as [L|[L|L]]; [|exact L|].
      + exfalso. assert (length (shape b) < length (shape b)); [|lia]. eapply max_dims_inv; [exact EM| |exact Ib]. apply in_seq. lia.
      + exfalso. eapply stack_loop_bad; [exact Ib| |exact Ht]. cbn [new_zeros shape length]. lia.
  Qed.

  (** ** concatenating *)
  Definition rows (b : tensor) : nat := hd 0 (shape b).
  Lemma concat_loop_ok ms N : forall (batch : list tensor) (t : tensor) i,
    shape t = N :: ms -> i + list_sum (map rows batch) <= N -> (forall b, In b batch -> shape b <> [] /\ Forall2 le (tl (shape b)) ms) ->
    exists t', concat_loop cast t i batch = Ok t' /\ shape t' = N :: ms /\ dtype t' = dtype t /\
      forall j idx, length idx = length ms ->
        (j < i -> elt t' (j :: idx) = elt t (j :: idx)) /\
        forall before b after k, batch = before ++ b :: after -> k < rows b -> j = i + list_sum (map rows before) + k ->
          (inside idx (tl (shape b)) -> elt t' (j :: idx) = cast (dtype t) (elt b (k :: idx))) /\
          (~ inside idx (tl (shape b)) -> elt t' (j :: idx) = elt t (j :: idx)).
  Proof.
    induction batch as [|b batch IH]; intros t i Sh HN HF; cbn [concat_loop].
    - exists t. repeat split; auto; intros; destruct before; discriminate.
    - destruct (HF b) as [NE LB]; [left; reflexivity|]. destruct (shape b) as [|n s] eqn:Eb; [congruence|]. cbn [tl] in LB.
      assert (Rb : rows b = n) by (unfold rows; rewrite Eb; reflexivity).
      change (list_sum (map rows (b :: batch))) with (rows b + list_sum (map rows batch)) in HN. rewrite Rb in HN.
      unfold assign. rewrite Sh. cbn [region]. rewrite below_region by exact LB. cbn [option_map].
      replace (Nat.min (i + n) N - Nat.min i N) with n by lia. rewrite Eb.
      replace (list_eqb (n :: s) (n :: s)) with true by (symmetry; apply list_eqb_eq; reflexivity). cbn [bind].
      set (t1 := mkT (dtype t) (N :: ms) _). destruct (IH t1 (i + n)) as (t' & E & S1 & D1 & H).
      + reflexivity.
      + lia.
      + intros; apply HF; right; assumption.
      + exists t'. split; [exact E|]. split; [exact S1|]. split; [exact D1|]. intros j idx HL.
        assert (LS : length idx = length s) by (rewrite HL; symmetry; exact (Forall2_len LB)).
        destruct (below_source LS) as [B1 B2]. destruct (H j idx HL) as [H1 H2].
        assert (OUT : j < i \/ i + n <= j -> elt t1 (j :: idx) = elt t (j :: idx)).
        { intros HO. subst t1. cbn [elt source]. destruct (Nat.leb_spec i j); destruct (Nat.ltb_spec j (i + n)); cbn [andb]; try reflexivity; lia. }
        split.
        * intros Hj. rewrite H1 by lia. apply OUT. lia.
        * intros before c after k Ec Hk Hj. destruct before as [|b' before].
          -- cbn in Ec. injection Ec as <- <-. cbn in Hj. rewrite Rb in Hk. rewrite Eb. cbn [tl]. rewrite H1 by lia.
             subst t1. cbn [elt source]. destruct (Nat.leb_spec i j); [|lia]. destruct (Nat.ltb_spec j (i + n)); [|lia]. cbn [andb].
             split; intros HI; [rewrite B1 by exact HI|rewrite B2 by exact HI]; cbn [option_map]; [|reflexivity]. replace (j - i) with k by lia. reflexivity.
          -- cbn in Ec. injection Ec as <- Ec. change (list_sum (map rows (b :: before))) with (rows b + list_sum (map rows before)) in Hj. rewrite Rb in Hj.
             destruct (H2 before c after k Ec Hk) as [Q1 Q2]; [lia|]. split; [exact Q1|]. intros HI. rewrite (Q2 HI). apply OUT. lia.
  Qed.

  Lemma concat_loop_bad (batch : list tensor) : forall t i b, In b batch -> length (shape t) < length (shape b) -> forall t', concat_loop cast t i batch <> Ok t'.
  Proof.
    induction batch as [|c batch IH]; intros t i b I HL t' H; [destruct I|]. cbn [concat_loop] in H. destruct (shape c) as [|n s] eqn:Ec; [discriminate|].
    destruct (assign cast t (Slice i (i + n) :: map (Slice 0) s) c) as [t1|] eqn:E; [|discriminate]. cbn [bind] in H. destruct I as [->|I].
    - unfold assign in E. rewrite region_too_many in E; [discriminate|]. cbn [length]. rewrite map_length. rewrite Ec in HL. exact HL.
    - eapply IH; [exact I| |exact H]. unfold assign in E. destruct (region _ _); [|discriminate]. destruct (list_eqb _ _); [|discriminate]. injection E as <-. exact HL.
  Qed.

  Lemma heads_inv (batch : list tensor) ns : sequence (map (dim_of 0) batch) = Ok ns -> (forall b, In b batch -> shape b <> []) /\ ns = map rows batch.
  Proof.
    revert ns. induction batch as [|b batch IH]; intros ns H; [injection H as <-; split; [intros ? []|reflexivity]|].
    apply sequence_ok in H. destruct ns as [|n ns]; [discriminate|]. cbn [map] in H. injection H as H1 H2. destruct (IH ns) as [I1 I2]; [apply sequence_ok; exact H2|].
    unfold dim_of in H1. destruct (shape b) as [|m s] eqn:Eb; [discriminate|]. cbn in H1. injection H1 as ->. split.
    - intros c [<-|Ic]; [congruence|auto].
    - cbn [map]. unfold rows at 1. rewrite Eb. cbn [hd]. congruence.
  Qed.

  Theorem concat_pad_ok (batch : list tensor) :
    ((exists t, concat_pad cast zero batch = Ok t) <-> exists b0, In b0 batch /\ shape b0 <> [] /\ forall b, In b batch -> length (shape b) = length (shape b0)) /\
    forall t, concat_pad cast zero batch = Ok t -> concatenated cast zero batch t.
  Proof.
    assert (G : forall b0 rest, batch = b0 :: rest -> shape b0 <> [] -> (forall b, In b batch -> length (shape b) = length (shape b0)) ->
               exists t, concat_pad cast zero batch = Ok t /\ concatenated cast zero batch t).
    { intros b0 rest E NE HL. assert (P : 0 < length (shape b0)) by (destruct (shape b0); [congruence|cbn; lia]).
      assert (NEb : forall b, In b batch -> shape b <> []) by (intros b Ib Q; specialize (HL b Ib); rewrite Q in HL; cbn in HL; lia).
      unfold concat_pad. rewrite (sequence_map_ok (g := rows)).
      2:{ intros b Ib. rewrite dim_ok by (rewrite HL by exact Ib; exact P). unfold rows. destruct (shape b); reflexivity. }
      cbn [bind]. rewrite E. rewrite <- E.
      rewrite max_dims_ok by (intros d b Id Ib; apply in_seq in Id; rewrite HL by exact Ib; lia). cbn [bind].
      assert (BD : bounding (map (fun b : tensor => tl (shape b)) batch) (length (shape b0) - 1) (map (fun d => list_max (map (fun b => nth d (shape b) 0) batch)) (seq 1 (length (shape b0) - 1)))).
      { pose proof (@maxes_bounding (map shape batch) (length (shape b0) - 1) 1) as Q. rewrite map_map in Q.
        replace (map (fun d => list_max (map (fun b => nth d (shape b) 0) batch)) (seq 1 (length (shape b0) - 1))) with
          (map (fun d => list_max (map (fun s => nth d s 0) (map shape batch))) (seq 1 (length (shape b0) - 1))) by (apply map_ext; intros d; rewrite map_map; reflexivity).
        replace (map (fun b : tensor => tl (shape b)) batch) with (map (fun x : tensor => skipn 1 (shape x)) batch) by (apply map_ext; intros b; destruct (shape b); reflexivity).
        apply Q. rewrite E. discriminate. }
      set (sh := map _ (seq 1 _)) in *.
      destruct (@concat_loop_ok sh (list_sum (map rows batch)) batch (new_zeros zero b0 (list_sum (map rows batch) :: sh)) 0) as (t & Et & St & Dt & H).
      - reflexivity.
      - lia.
      - intros b Ib. split; [auto|]. eapply bounding_le; [exact BD|apply (in_map (fun b : tensor => tl (shape b))); exact Ib|].
        specialize (HL b Ib). specialize (NEb b Ib). destruct (shape b); [congruence|cbn in *; lia].
      - exists t. split; [exact Et|]. exists b0, rest, sh. split; [exact E|]. split; [exact Dt|]. split; [exact St|]. split; [exact BD|].
        intros before b after i idx Eb Hi Hx at_. destruct (H at_ idx (inside_length Hx)) as [_ H2]. apply (H2 before b after i Eb Hi). reflexivity. }
    assert (INV : forall b0 rest t, batch = b0 :: rest -> concat_pad cast zero batch = Ok t -> shape b0 <> [] /\ forall b, In b batch -> length (shape b) = length (shape b0)).
    { intros b0 rest t EB Ht. unfold concat_pad in Ht. destruct (sequence (map (dim_of 0) batch)) as [ns|] eqn:EN; [|discriminate]. cbn [bind] in Ht.
      apply heads_inv in EN. destruct EN as [NE _]. split; [apply NE; rewrite EB; left; reflexivity|]. intros b Ib.
      assert (P : 0 < length (shape b0)) by (assert (Q := NE b0); destruct (shape b0); [exfalso; apply Q; [rewrite EB; left|]; reflexivity|cbn; lia]).
      rewrite EB in Ht. rewrite <- EB in Ht. destruct (max_dims (seq 1 (length (shape b0) - 1)) batch) as [ms|] eqn:EM; [|discriminate]. cbn [bind] in Ht.
      assert (LM : length ms = length (shape b0) - 1).
      { unfold max_dims in EM. apply sequence_ok in EM. apply (f_equal (@length _)) in EM. rewrite !map_length, seq_length in EM. congruence. }
      assert (PB : 0 < length (shape b)) by (assert (Q := NE b Ib); destruct (shape b); [congruence|cbn; lia]).
      destruct (Nat.lt_trichotomy (length (shape b)) (length (shape b0))) as [L|[L|L]]; [|exact L|].
      + exfalso. assert (length (shape b) < length (shape b)); [|lia]. eapply max_dims_inv; [exact EM| |exact Ib]. apply in_seq. lia.
      + exfalso. eapply concat_loop_bad; [exact Ib| |exact Ht]. cbn [new_zeros shape length]. lia. }
    split; [split|].
    - intros [t Ht]. destruct batch as [|b0 rest] eqn:EB; [discriminate|]. destruct (INV b0 rest t eq_refl Ht) as [N L]. exists b0. split; [left; reflexivity|]. split; assumption.
    - intros (b0 & I & N & HL). destruct batch as [|c rest] eqn:EB; [destruct I|]. rewrite <- EB in *. assert (Ic : In c batch) by (rewrite EB; left; reflexivity).
      destruct (G c rest) as (t & Et & _); [exact EB| | |eauto].
      + specialize (HL c Ic). intros Q. rewrite Q in HL. destruct (shape b0); [congruence|discriminate].
      + intros b Ib. rewrite HL by exact Ib. symmetry. apply HL. exact Ic.
    - intros t Ht. destruct batch as [|b0 rest] eqn:EB; [discriminate|]. rewrite <- EB in *. destruct (INV b0 rest t EB Ht) as [N L].
      destruct (G b0 rest EB N L) as (t2 & Et & Q). congruence.
  Qed.

  (** ** structures *)
  Notation pyval := (pyval T A).
  Lemma pyval_ind' (P : pyval -> Prop) :
    (forall t, P (PTensor t)) -> (forall m, Forall (fun kv => P (snd kv)) m -> P (PDict m)) ->
    (forall c m, Forall (fun kv => P (snd kv)) m -> P (PRec c m)) -> (forall l, P (PList l)) -> (forall n, P (POther n)) -> forall v, P v.
  Proof.
    intros H1 H2 H3 H4 H5. fix IH 1. intros [t|m|c m|l|n]; [apply H1|apply H2|apply H3|apply H4|apply H5];
      (induction m as [|[k x] m IHm]; constructor; [apply IH|exact IHm]).
  Qed.

  Section Gen.
    Variable leaf : list tensor -> result tensor.
    (** the loop over the fields *)
    Fixpoint fields (gt : string -> pyval -> result pyval) (vs : list pyval) (l : list (string * pyval)) : result (list (string * pyval)) :=
      match l with
      | [] => Ok []
      | (k, x) :: l' => bind (sequence (map (gt k) vs)) (fun xs => bind (generic leaf x xs) (fun y => bind (fields gt vs l') (fun ys => Ok ((k, y) :: ys))))
      end.
    Lemma generic_dict m vs : generic leaf (PDict m) vs = bind (fields item vs m) (fun r => Ok (PDict r)).
    Proof. cbn [generic]. f_equal. induction m as [|[k x] m IH]; [reflexivity|]. cbn [fields]. rewrite <- IH. reflexivity. Qed.
    Lemma generic_rec c m vs : generic leaf (PRec c m) vs = bind (fields attr vs m) (fun r => Ok (PRec c r)).
    Proof. cbn [generic]. f_equal. induction m as [|[k x] m IH]; [reflexivity|]. cbn [fields]. rewrite <- IH. reflexivity. Qed.

    Lemma fields_inv gt vs : forall m r, fields gt vs m = Ok r -> map fst r = map fst m /\
      forall k x, get k m = Some x -> exists xs y, sequence (map (gt k) vs) = Ok xs /\ generic leaf x xs = Ok y /\ get k r = Some y.
    Proof.
      induction m as [|[k x] m IH]; intros r H; cbn [fields] in H.
      - injection H as <-. split; [reflexivity|]. discriminate.
      - destruct (sequence (map (gt k) vs)) as [xs|] eqn:E1; [|discriminate]. cbn [bind] in H. destruct (generic leaf x xs) as [y|] eqn:E2; [|discriminate]. cbn [bind] in H.
        destruct (fields gt vs m) as [r'|] eqn:E3; [|discriminate]. cbn [bind] in H. injection H as <-. destruct (IH r' eq_refl) as [M G]. split; [cbn; congruence|].
        intros k' x' Hk. cbn [get] in *. destruct (String.eqb k' k) eqn:EK; [|apply G; exact Hk]. apply String.eqb_eq in EK. subst k'. injection Hk as <-. eauto.
    Qed.
    Lemma fields_make gt vs : forall m, (forall k x, In (k, x) m -> exists xs y, sequence (map (gt k) vs) = Ok xs /\ generic leaf x xs = Ok y) -> exists r, fields gt vs m = Ok r.
    Proof.
      induction m as [|[k x] m IH]; intros H; cbn [fields]; [eauto|]. destruct (H k x (or_introl eq_refl)) as (xs & y & E1 & E2). rewrite E1. cbn [bind]. rewrite E2. cbn [bind].
      destruct IH as [r E]; [intros; apply H; right; assumption|]. rewrite E. cbn. eauto.
    Qed.

    Lemma items_at k (vs xs : list pyval) : sequence (map (item k) vs) = Ok xs -> Forall2 (fun v x => exists m : list (string * pyval), v = PDict m /\ get k m = Some x) vs xs.
    Proof.
      intros H. apply sequence_ok in H. revert xs H. induction vs as [|v vs IH]; intros [|x xs] H; try discriminate; constructor.
      - cbn in H. injection H as H _. unfold item in H. destruct v; try discriminate. destruct (get k m) eqn:E; [|discriminate]. injection H as ->. eauto.
      - apply IH. cbn in H. injection H as _ H. exact H.
    Qed.
    Lemma attrs_at k (vs xs : list pyval) : sequence (map (attr k) vs) = Ok xs -> Forall2 (fun v x => exists c (m : list (string * pyval)), v = PRec c m /\ get k m = Some x) vs xs.
    Proof.
      intros H. apply sequence_ok in H. revert xs H. induction vs as [|v vs IH]; intros [|x xs] H; try discriminate; constructor.
      - cbn in H. injection H as H _. unfold attr in H. destruct v; try discriminate. destruct (get k m) eqn:E; [|discriminate]. injection H as ->. eauto.
      - apply IH. cbn in H. injection H as _ H. exact H.
    Qed.
    Lemma Forall2_compose {X Y Z} (R : X -> Y -> Prop) (S : Y -> Z -> Prop) (Q : X -> Z -> Prop) l1 l2 l3 :
      (forall x y z, R x y -> S y z -> Q x z) -> Forall2 R l1 l2 -> Forall2 S l2 l3 -> Forall2 Q l1 l3.
    Proof. intros H F. revert l3. induction F; intros l3 G; inversion G; subst; constructor; eauto. Qed.

    Theorem generic_merged v0 : forall vs r, generic leaf v0 vs = Ok r -> forall p y0, value_at v0 p y0 ->
      exists ys y, Forall2 (fun v x => value_at v p x) vs ys /\ value_at r p y /\ merged_node (fun ts t => leaf ts = Ok t) y0 ys y.
    Proof.
      induction v0 as [t|m IH|c m IH|l|n] using pyval_ind'; intros vs r H p y0 V.
      - inversion V; subst. exists vs, r. split; [clear; induction vs; constructor; [constructor|assumption]|]. split; [constructor|]. cbn [generic] in H.
        destruct (sequence (map tensor_of vs)) as [ts|] eqn:E; [|discriminate]. cbn [bind] in H. destruct (leaf (t :: ts)) as [t'|] eqn:EL; [|discriminate]. injection H as <-.
        exists (t :: ts), t'. split; [|auto]. cbn [map]. f_equal. apply sequence_ok in E. clear EL. revert ts E. induction vs as [|v vs IHv]; intros [|u ts] E; try discriminate; [reflexivity|].
        cbn in E. injection E as E1 E2. cbn [map]. rewrite <- (IHv ts E2). f_equal. destruct v; try discriminate. cbn in E1. congruence.
      - rewrite generic_dict in H. destruct (fields item vs m) as [r'|] eqn:EF; [|discriminate]. cbn [bind] in H. injection H as <-. apply fields_inv in EF. destruct EF as [EM EG].
        inversion V as [|m0 k x q y Gx Vx|]; subst.
        + exists vs, (PDict r'). split; [clear; induction vs; constructor; [constructor|assumption]|]. split; [constructor|]. exists r'. auto.
        + destruct (EG k x Gx) as (xs & y & E1 & E2 & E3). assert (IHx : In (k, x) m).
          { clear -Gx. induction m as [|[k' x'] m IHm]; [discriminate|]. cbn in Gx. destruct (String.eqb k k') eqn:EK; [apply String.eqb_eq in EK; subst; injection Gx as ->; left; reflexivity|right; auto]. }
          rewrite Forall_forall in IH. destruct (IH _ IHx xs y E2 q y0 Vx) as (ys & z & F & V2 & N). exists ys, z. split; [|split; [econstructor; eassumption|exact N]].
          eapply Forall2_compose; [|exact (items_at E1)|exact F]. intros v a b (m1 & -> & G1) Vb. econstructor; eassumption.
      - rewrite generic_rec in H. destruct (fields attr vs m) as [r'|] eqn:EF; [|discriminate]. cbn [bind] in H. injection H as <-. apply fields_inv in EF. destruct EF as [EM EG].
        inversion V as [| |c0 m0 k x q y Gx Vx]; subst.
        + exists vs, (PRec c r'). split; [clear; induction vs; constructor; [constructor|assumption]|]. split; [constructor|]. exists r'. auto.
        + destruct (EG k x Gx) as (xs & y & E1 & E2 & E3). assert (IHx : In (k, x) m).
          { clear -Gx. induction m as [|[k' x'] m IHm]; [discriminate|]. cbn in Gx. destruct (String.eqb k k') eqn:EK; [apply String.eqb_eq in EK; subst; injection Gx as ->; left; reflexivity|right; auto]. }
          rewrite Forall_forall in IH. destruct (IH _ IHx xs y E2 q y0 Vx) as (ys & z & F & V2 & N). exists ys, z. split; [|split; [econstructor; eassumption|exact N]].
          eapply Forall2_compose; [|exact (attrs_at E1)|exact F]. intros v a b (c1 & m1 & -> & G1) Vb. econstructor; eassumption.
      - inversion V; subst. exists vs, r. split; [clear; induction vs; constructor; [constructor|assumption]|]. split; [constructor|]. cbn in H. injection H as <-. reflexivity.
      - inversion V; subst. exists vs, r. split; [clear; induction vs; constructor; [constructor|assumption]|]. split; [constructor|]. cbn in H. injection H as <-. reflexivity.
    Qed.

    Lemma get_In k x (m : list (string * pyval)) : NoDup (map fst m) -> In (k, x) m -> get k m = Some x.
    Proof.
      induction m as [|[k' x'] m IH]; intros ND I; [destruct I|]. inversion ND as [|? ? NI ND']; subst. cbn [get]. destruct I as [[= -> ->]|I]; [rewrite String.eqb_refl; reflexivity|].
      destruct (String.eqb k k') eqn:E; [|auto]. apply String.eqb_eq in E. subst k'. exfalso. apply NI. apply (in_map fst) in I. exact I.
    Qed.

    Theorem generic_makes (v0 : pyval) : wellformed v0 -> forall vs,
      (forall p y0, value_at v0 p y0 -> exists ys, Forall2 (fun v x => value_at v p x) vs ys /\
        match y0 with PTensor _ => exists ts, y0 :: ys = map (@PTensor T A) ts /\ exists t, leaf ts = Ok t | _ => True end) ->
      exists r, generic leaf v0 vs = Ok r.
    Proof.
      induction v0 as [t|m IH|c m IH|l|n] using pyval_ind'; intros W vs H; [| | |cbn; eauto|cbn; eauto].
      - destruct (H [] (PTensor t) (va_here _)) as (ys & F & ts & E & t' & L). destruct ts as [|u ts]; [discriminate|]. cbn in E. injection E as <- E. subst ys.
        cbn [generic]. replace (sequence (map tensor_of vs)) with (Ok ts); [cbn [bind]; rewrite L; cbn; eauto|]. symmetry. apply sequence_ok. clear -F.
        revert ts F. induction vs as [|v vs IHv]; intros [|u ts] F; inversion F; subst; [reflexivity|]. cbn [map]. f_equal; [|auto].
        match goal with V : value_at _ _ _ |- _ => inversion V; subst end. reflexivity.
      - inversion W as [|m0 ND WF| | |]; subst. rewrite generic_dict. destruct (@fields_make item vs m) as [r E]; [|rewrite E; cbn; eauto]. intros k x I. assert (Gx := get_In ND I).
        rewrite Forall_forall in IH, WF. specialize (IH _ I). specialize (WF _ I). cbn [snd] in *.
        assert (exists xs, sequence (map (item k) vs) = Ok xs /\ Forall2 (fun v x => exists m : list (string * pyval), v = PDict m /\ get k m = Some x) vs xs) as (xs & E1 & F1).
        { destruct (H [Key k] x) as (xs & F & _); [econstructor; [exact Gx|constructor]|]. exists xs. assert (F1 : Forall2 (fun v x => exists m : list (string * pyval), v = PDict m /\ get k m = Some x) vs xs).
          { eapply Forall2_weaken; [|exact F]. intros v a Va. inversion Va; subst. match goal with V : value_at _ [] _ |- _ => inversion V; subst end. eauto. }
          split; [|exact F1]. apply sequence_ok. clear -F1. induction F1 as [|v a vs xs (m1 & -> & G1) F IHF]; [reflexivity|]. cbn [map item]. rewrite G1. f_equal. exact IHF. }
        destruct (IH WF xs) as [y E2]; [|eauto]. intros p y0 V. destruct (H (Key k :: p) y0) as (ys & F & N); [econstructor; eassumption|]. exists ys. split; [|exact N].
        clear -F F1. revert ys F. induction F1 as [|v a vs xs (m1 & -> & G1) F1 IHF]; intros ys F; inversion F; subst; constructor; auto.
        match goal with V : value_at (PDict m1) _ _ |- _ => inversion V; subst end. congruence.
      - inversion W as [| |c0 m0 ND WF| |]; subst. rewrite generic_rec. destruct (@fields_make attr vs m) as [r E]; [|rewrite E; cbn; eauto]. intros k x I. assert (Gx := get_In ND I).
        rewrite Forall_forall in IH, WF. specialize (IH _ I). specialize (WF _ I). cbn [snd] in *.
        assert (exists xs, sequence (map (attr k) vs) = Ok xs /\ Forall2 (fun v x => exists c (m : list (string * pyval)), v = PRec c m /\ get k m = Some x) vs xs) as (xs & E1 & F1).
        { destruct (H [Attr k] x) as (xs & F & _); [econstructor; [exact Gx|constructor]|]. exists xs. assert (F1 : Forall2 (fun v x => exists c (m : list (string * pyval)), v = PRec c m /\ get k m = Some x) vs xs).
          { eapply Forall2_weaken; [|exact F]. intros v a Va. inversion Va; subst. match goal with V : value_at _ [] _ |- _ => inversion V; subst end. eauto. }
          split; [|exact F1]. apply sequence_ok. clear -F1. induction F1 as [|v a vs xs (c1 & m1 & -> & G1) F IHF]; [reflexivity|]. cbn [map attr]. rewrite G1. f_equal. exact IHF. }
        destruct (IH WF xs) as [y E2]; [|eauto]. intros p y0 V. destruct (H (Attr k :: p) y0) as (ys & F & N); [econstructor; eassumption|]. exists ys. split; [|exact N].
        clear -F F1. revert ys F. induction F1 as [|v a vs xs (c1 & m1 & -> & G1) F1 IHF]; intros ys F; inversion F; subst; constructor; auto.
        match goal with V : value_at (PRec c1 m1) _ _ |- _ => inversion V; subst end. congruence.
    Qed.
  End Gen.
End Proofs.
