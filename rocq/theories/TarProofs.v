From Coq Require Import String Ascii.
From Verif Require Import Base Files FilesProofs Tar TarSpec.
Local Open Scope list_scope.
Local Open Scope nat_scope.

Lemma seqb_refl s : seqb s s = true.
Proof. apply String.eqb_refl. Qed.
Lemma seqb_eq a b : seqb a b = true <-> a = b.
Proof. apply String.eqb_eq. Qed.
Lemma seqb_neq a b : seqb a b = false <-> a <> b.
Proof. apply String.eqb_neq. Qed.
Lemma seqb_sym a b : seqb a b = seqb b a.
Proof. apply String.eqb_sym. Qed.

Section Proofs.
  Context {Dat : Type}.
  Notation ent := (ent Dat).
  Implicit Types (l : list ent) (e : ent) (ms : list (member Dat)).

  (** ** maximal runs *)
  Inductive wg : list (list ent) -> Prop :=
  | wg_nil : wg []
  | wg_cons e g G : Forall (fun e' => en_base e' = en_base e) g ->
      match G with (e' :: _) :: _ => en_base e <> en_base e' | _ => True end ->
      wg G -> wg ((e :: g) :: G).

  Lemma runs_nonnil l : l <> [] -> exists e g G, runs l = (e :: g) :: G /\ hd_error l = Some e.
  Proof.
    destruct l as [|e l]; [congruence|]. intros _. cbn [runs].
    destruct (runs l) as [|[|e' g] r]; [eauto 6|eauto 6|]. destruct (seqb _ _); eauto 6.
  Qed.

  Lemma runs_wg l : wg (runs l).
  Proof.
    induction l as [|e l IH]; [constructor|]. cbn [runs]. destruct (runs l) as [|[|e' g] r] eqn:ER.
    - constructor; auto.
    - constructor; auto.
    - destruct (seqb (en_base e) (en_base e')) eqn:E.
      + apply seqb_eq in E. inversion IH as [|e0 g0 G0 H1 H2 H3]; subst. constructor.
        * constructor; [auto|]. eapply Forall_impl; [|exact H1]. cbn. intros a ->. auto.
        * destruct r as [|[|e2 ?] ?]; auto. congruence.
        * auto.
      + apply seqb_neq in E. constructor; auto.
  Qed.

  Lemma runs_concat l : concat (runs l) = l.
  Proof.
    induction l as [|e l IH]; [reflexivity|]. cbn [runs]. destruct (runs l) as [|[|e' g] r] eqn:ER.
    - cbn in *. congruence.
    - cbn in *. congruence.
    - destruct (seqb _ _); cbn in *; congruence.
  Qed.

  Lemma runs_app_run e g : forall l, Forall (fun e' => en_base e' = en_base e) g ->
    match l with e' :: _ => en_base e <> en_base e' | [] => True end ->
    runs ((e :: g) ++ l) = (e :: g) :: runs l.
  Proof.
    revert e. induction g as [|e1 g IH]; intros e l HF HL.
    - cbn [app runs]. destruct l as [|e' l]; [reflexivity|].
      destruct (@runs_nonnil (e' :: l) ltac:(discriminate)) as (e2 & g2 & G2 & E & H). rewrite E. injection H as <-.
      destruct (seqb _ _) eqn:E1; [apply seqb_eq in E1; congruence|reflexivity].
    - inversion HF as [|? ? Hb HF']; subst.
      change ((e :: e1 :: g) ++ l) with (e :: ((e1 :: g) ++ l)). cbn [runs]. fold (runs ((e1 :: g) ++ l)).
      change (match runs ((e1 :: g) ++ l) with
        | (e' :: g0) :: r => if seqb (en_base e) (en_base e') then (e :: e' :: g0) :: r else [e] :: (e' :: g0) :: r
        | r => [e] :: r end = (e :: e1 :: g) :: runs l).
      rewrite IH.
      + rewrite Hb, seqb_refl. reflexivity.
      + eapply Forall_impl; [|exact HF']. cbn. congruence.
      + destruct l; auto. congruence.
  Qed.

  Lemma wg_runs G : wg G -> runs (concat G) = G.
  Proof.
    induction 1 as [|e g G H1 H2 H3 IH]; [reflexivity|]. cbn [concat]. rewrite runs_app_run; auto.
    - congruence.
    - destruct G as [|[|e' ?] ?]; cbn; auto. inversion H3.
  Qed.

  Lemma wg_skipn G : forall k, wg G -> wg (skipn k G).
  Proof. induction G as [|g G IH]; intros [|k] H; cbn; auto. inversion H; subst. auto. Qed.

  Lemma wg_firstn G : forall k, wg G -> wg (firstn k G).
  Proof.
    induction G as [|g G IH]; intros [|k] H; cbn; auto using wg_nil. inversion H; subst. constructor; auto.
    destruct G; [destruct k; auto|destruct k; cbn; auto].
  Qed.

  (** ** offsets *)
  Inductive asc : nat -> list ent -> Prop :=      (* offsets strictly increasing, all >= lo *)
  | asc_nil lo : asc lo []
  | asc_cons lo e l : lo <= en_off e -> asc (S (en_off e)) l -> asc lo (e :: l).

  Lemma asc_le lo lo' l : asc lo l -> lo' <= lo -> asc lo' l.
  Proof. destruct 1; constructor; auto. lia. Qed.

  Lemma asc_Forall lo l : asc lo l -> Forall (fun e => lo <= en_off e) l.
  Proof. induction 1; constructor; auto. eapply Forall_impl; [|eassumption]. cbn. lia. Qed.

  Lemma asc_app lo l1 l2 : asc lo (l1 ++ l2) -> asc lo l1 /\ asc lo l2 /\
    (forall e1 e2, In e1 l1 -> In e2 l2 -> en_off e1 < en_off e2).
  Proof.
    revert lo. induction l1 as [|e l1 IH]; intros lo H; cbn in *.
    - repeat split; [constructor|auto|intros ? ? []].
    - inversion H; subst. destruct (IH _ H4) as (A & B & C). split; [constructor; auto|]. split; [eapply asc_le; eauto; lia|].
      intros e1 e2 [<-|I1] I2; [|auto]. pose proof (asc_Forall B) as F. rewrite Forall_forall in F. apply F in I2. lia.
  Qed.

  Lemma filter_all {A} (f : A -> bool) (l : list A) : (forall x, In x l -> f x = true) -> filter f l = l.
  Proof. induction l as [|x l IH]; intros H; cbn; [auto|]. rewrite H by (left; auto). f_equal. apply IH. intros. apply H. right; auto. Qed.
  Lemma filter_none {A} (f : A -> bool) (l : list A) : (forall x, In x l -> f x = false) -> filter f l = [].
  Proof. induction l as [|x l IH]; intros H; cbn; [auto|]. rewrite H by (left; auto). apply IH. intros. apply H. right; auto. Qed.

  (** the entries from the head of l2 on *)
  Lemma filter_from lo l1 e l2 : asc lo (l1 ++ e :: l2) ->
    filter (fun x => en_off e <=? en_off x) (l1 ++ e :: l2) = e :: l2 /\
    filter (fun x => en_off x <? en_off e) (l1 ++ e :: l2) = l1.
  Proof.
    intros H. apply asc_app in H. destruct H as (A & B & C). rewrite !filter_app.
    assert (B' : forall x, In x (e :: l2) -> en_off e <= en_off x).
    { intros x [<-|I]; [lia|]. inversion B; subst. pose proof (asc_Forall H3) as F. rewrite Forall_forall in F. apply F in I. lia. }
    assert (C' : forall x, In x l1 -> en_off x < en_off e) by (intros x I; apply C; [auto|left; auto]).
    split.
    - rewrite (filter_none (l := l1)), (filter_all (l := e :: l2)); [reflexivity| |].
      + intros x I. apply B' in I. lia.
      + intros x I. apply C' in I. lia.
    - rewrite (filter_all (l := l1)), (filter_none (l := e :: l2)); [apply app_nil_r| |].
      + intros x I. apply B' in I. lia.
      + intros x I. apply C' in I. lia.
  Qed.

  Lemma concat_split {A} (G : list (list A)) k : concat G = concat (firstn k G) ++ concat (skipn k G).
  Proof. rewrite <- concat_app, firstn_skipn. reflexivity. Qed.

  Definition first_off (g : list ent) : nat := match g with e :: _ => en_off e | [] => 0 end.

  (** cutting at the first offset of run k cuts the runs at k *)
  Lemma filter_runs_from l k : forall lo g, asc lo l -> nth_error (runs l) k = Some g ->
    filter (fun x => first_off g <=? en_off x) l = concat (skipn k (runs l)) /\
    filter (fun x => en_off x <? first_off g) l = concat (firstn k (runs l)).
  Proof.
    intros lo g HA HN. pose proof (runs_wg l) as W. pose proof (skipn_cons_nth HN) as SK.
    assert (exists e g', g = e :: g') as (e & g' & ->).
    { pose proof (wg_skipn k W) as W'. rewrite SK in W'. inversion W'; subst. eauto. }
    pose proof (runs_concat l) as RC. rewrite (concat_split (runs l) k), SK in RC. cbn [concat app] in RC.
    cbn [first_off]. rewrite SK. cbn [concat app]. rewrite <- RC in HA. apply filter_from in HA. rewrite RC in HA. exact HA.
  Qed.

  Lemma filter_first_zero l : filter (fun x => 0 <=? en_off x) l = l.
  Proof. apply filter_all. reflexivity. Qed.

  (** ** locate / entries *)
  Lemma locate_entries_asc ms : forall off, (forall m, In m ms -> 0 < m_size m) -> asc off (entries (locate off ms)).
  Proof.
    induction ms as [|m ms IH]; intros off H; cbn; [constructor|].
    assert (H1 : asc (off + m_size m) (entries (locate (off + m_size m) ms))) by (apply IH; intros; apply H; right; auto).
    specialize (H m (or_introl eq_refl)). unfold entries in H1. destruct (part_of m) as [[b x]|]; cbn.
    - constructor; cbn; [lia|]. eapply asc_le; eauto. lia.
    - eapply asc_le; eauto. lia.
  Qed.

  Lemma locate_bound ms : forall off o m, In (o, m) (locate off ms) -> off <= o /\ o + m_size m <= off + tar_size ms.
  Proof.
    induction ms as [|m' ms IH]; intros off o m; cbn [locate In]; [tauto|].
    change (tar_size (m' :: ms)) with (m_size m' + tar_size ms). intros [[= <- <-]|H]; [lia|].
    apply IH in H. lia.
  Qed.

  Lemma entries_bound ms off e : (forall m, In m ms -> 0 < m_size m) -> In e (entries (locate off ms)) ->
    off <= en_off e < off + tar_size ms.
  Proof.
    intros HS. unfold entries. rewrite in_flat_map. intros ([o m] & H1 & H2). cbn [fst snd] in H2.
    destruct (part_of m) as [[b x]|]; [|destruct H2]. destruct H2 as [<-|[]]. cbn.
    assert (In m ms). { clear -H1. revert off H1. induction ms as [|m' ms IH]; intros off; cbn; [tauto|]. intros [[= _ <-]|H]; eauto. }
    apply HS in H. apply locate_bound in H1. lia.
  Qed.

  (** ** the index *)
  Fixpoint idx_ent (last : option string) (l : list ent) : list nat :=
    match l with
    | [] => []
    | e :: l' =>
        if match last with Some b => seqb b (en_base e) | None => false end
        then idx_ent last l' else en_off e :: idx_ent (Some (en_base e)) l'
    end.

  Lemma index_loop_ent ms : forall off last,
    index_loop off last ms = idx_ent last (entries (locate off ms)) ++ [off + tar_size ms].
  Proof.
    unfold tar_size. induction ms as [|m ms IH]; intros off last; cbn [index_loop locate]; [cbn; do 2 f_equal; lia|].
    unfold entries. cbn [flat_map fst snd map list_sum fold_right].
    replace (off + (m_size m + fold_right Nat.add 0 (map m_size ms))) with (off + m_size m + list_sum (map m_size ms)) by (unfold list_sum; lia).
    fold (entries (locate (off + m_size m) ms)).
    destruct (part_of m) as [[b x]|]; cbn [app]; [|apply IH]. cbn [idx_ent en_base en_off].
    destruct last as [b'|]; [destruct (seqb b' b)|]; rewrite IH; reflexivity.
  Qed.

  Lemma idx_ent_run b g : forall l, Forall (fun e => en_base e = b) g -> idx_ent (Some b) (g ++ l) = idx_ent (Some b) l.
  Proof.
    induction g as [|e g IH]; intros l H; cbn; [reflexivity|]. inversion H; subst. rewrite seqb_refl. apply IH; auto.
  Qed.

  Lemma idx_ent_wg G : wg G -> forall last,
    match last, G with Some b, (e :: _) :: _ => b <> en_base e | _, _ => True end ->
    idx_ent last (concat G) = map first_off G.
  Proof.
    induction 1 as [|e g G H1 H2 H3 IH]; intros last HL; [destruct last; reflexivity|].
    cbn [concat app map idx_ent first_off].
    assert (E : match last with Some b => seqb b (en_base e) | None => false end = false).
    { destruct last; auto. apply seqb_neq. exact HL. }
    rewrite E, idx_ent_run by exact H1. f_equal. apply IH. destruct G as [|[|e' ?] ?]; auto.
  Qed.

  Lemma index_of_runs ms : index_of ms = map first_off (archive_samples ms) ++ [tar_size ms].
  Proof.
    unfold index_of, archive_samples. rewrite index_loop_ent. f_equal.
    rewrite <- (runs_concat (entries (locate 0 ms))) at 1. apply idx_ent_wg; [apply runs_wg|exact I].
  Qed.

  (** ** the reader *)
  Section Reader.
    Variables (ms : list (member Dat)) (excl pfilter : string -> bool) (sh : shard).
    Hypothesis Hsize : forall m, In m ms -> 0 < m_size m.
    Notation key := (the_key sh).

    Definition live (l : list ent) : list ent := filter (fun e => negb (excl (key (en_base e)))) l.

    Lemma next_tarinfo_spec s :
      match next_tarinfo excl sh s with
      | None => live (entries s) = []
      | Some (e, s') => live (entries s) = e :: live (entries s')
      end.
    Proof.
      induction s as [|[o m] s IH]; cbn [next_tarinfo]; [reflexivity|].
      unfold entries. cbn [flat_map fst snd]. fold (entries s).
      destruct (part_of m) as [[b x]|]; cbn [app]; [|exact IH].
      unfold live in *. cbn [filter en_base]. destruct (excl (key b)); cbn [negb]; [exact IH|reflexivity].
    Qed.

    Lemma collect_spec name s : forall d d' cur s', collect excl pfilter sh name d s = (d', cur, s') ->
      exists g, live (entries s) = g ++ match cur with Some e => e :: live (entries s') | None => [] end /\
        Forall (fun e => en_base e = name) g /\
        d' = fold_left (fun d e => add_part pfilter e d) g d /\
        match cur with Some e => name <> en_base e | None => s' = [] end.
    Proof.
      induction s as [|[o m] s IH]; intros d d' cur s'; cbn [collect].
      - intros [= <- <- <-]. exists []. repeat split; auto.
      - unfold entries. cbn [flat_map fst snd]. fold (entries s).
        destruct (part_of m) as [[b x]|]; cbn [app]; [|apply IH].
        unfold live in *. cbn [filter en_base]. destruct (excl (key b)); cbn [negb]; [apply IH|].
        destruct (seqb name b) eqn:E.
        + intros H. apply IH in H. destruct H as (g & H1 & H2 & H3 & H4). apply seqb_eq in E. subst b.
          exists (mkE o name x (m_data m) :: g). rewrite H1. repeat split; auto.
        + intros [= <- <- <-]. apply seqb_neq in E. exists []. repeat split; auto.
    Qed.

    (** what is still to be read *)
    Definition pend (r : reader Dat) : list ent :=
      match r_cur r with Some e => e :: live (entries (r_stream r)) | None => live (entries (r_stream r)) end.

    Lemma read_next_spec orig bs r :
      (forall e, In e (pend r) -> en_off e + orig <= bs) -> orig <= bs ->
      match runs (pend r) with
      | [] => read_next excl pfilter sh orig bs None false r = Ok None
      | g :: G => exists s' cur, read_next excl pfilter sh orig bs None false r =
          Ok (Some (base_of g, mkRSam (key (base_of g)) (sh_name sh, r_off r + sh_offset sh) (parts_of pfilter g),
                    mkR (S (r_off r)) (match concat G with e :: _ => en_off e + orig | [] => bs end) s' cur)) /\
          pend (mkR (S (r_off r)) (match concat G with e :: _ => en_off e + orig | [] => bs end) s' cur) = concat G
      end.
    Proof.
      intros HB Ho. unfold read_next.
      assert (X : match (match r_cur r with Some e => Some (e, r_stream r) | None => next_tarinfo excl sh (r_stream r) end) with
                  | None => pend r = []
                  | Some (e, s) => pend r = e :: live (entries s) end).
      { unfold pend. destruct (r_cur r) as [e|]; [reflexivity|]. apply next_tarinfo_spec. }
      destruct (match r_cur r with Some e => Some (e, r_stream r) | None => next_tarinfo excl sh (r_stream r) end) as [[e s]|].
      2:{ rewrite X. reflexivity. }
      cbn [andb]. rewrite seqb_refl.
      destruct (collect excl pfilter sh (en_base e) (add_part pfilter e []) s) as [[d cur] s'] eqn:EC.
      destruct (collect_spec EC) as (g & H1 & H2 & H3 & H4).
      rewrite X, H1. change (e :: g ++ match cur with Some e0 => e0 :: live (entries s') | None => [] end)
        with ((e :: g) ++ match cur with Some e0 => e0 :: live (entries s') | None => [] end).
      rewrite runs_app_run; [|exact H2|destruct cur; auto].
      cbn [base_of]. rewrite runs_concat.
      assert (P : match cur with Some e' => en_off e' + orig | None => bs - orig + orig end =
                  match match cur with Some e0 => e0 :: live (entries s') | None => [] end with e0 :: _ => en_off e0 + orig | [] => bs end).
      { destruct cur; [reflexivity|]. lia. }
      rewrite P. exists s', cur.
      assert (LE : (bs <? match match cur with Some e0 => e0 :: live (entries s') | None => [] end with e0 :: _ => en_off e0 + orig | [] => bs end) = false).
      { apply Nat.ltb_ge. destruct cur as [e0|]; [|lia]. apply HB. rewrite X, H1. right. apply in_or_app. right. left. reflexivity. }
      rewrite LE. split.
      - rewrite H3. unfold parts_of. reflexivity.
      - unfold pend. cbn [r_cur r_stream]. destruct cur as [e0|]; [reflexivity|]. subst s'. reflexivity.
    Qed.

    (** the position reached after reading: total offset [p] of the first entry left *)
    Definition left_at (orig bs : nat) (l : list ent) : nat := match l with e :: _ => en_off e + orig | [] => bs end.

    Lemma read_upto_spec orig bs n : forall r, (forall e, In e (pend r) -> en_off e + orig <= bs) -> orig <= bs ->
      exists r', read_upto excl pfilter sh n orig bs r =
        Ok (number (fun i g => expected (sh_name sh) pfilter (i + sh_offset sh) g) (r_off r) (firstn n (runs (pend r))), r') /\
        r_off r' = r_off r + Nat.min n (length (runs (pend r))) /\
        (r_boff r' = if (n =? 0) || (length (runs (pend r)) =? 0) then r_boff r
                     else left_at orig bs (concat (skipn n (runs (pend r))))).
    Proof.
      induction n as [|n IH]; intros r HB Ho; cbn [read_upto].
      - exists r. cbn. repeat split. lia.
      - pose proof (read_next_spec HB Ho) as RN. destruct (runs (pend r)) as [|g G] eqn:ER.
        + rewrite RN. cbn. exists r. repeat split. lia.
        + destruct RN as (s' & cur & -> & HP). cbn [bind].
          set (r1 := mkR (S (r_off r)) _ s' cur) in *.
          assert (WG : runs (pend r1) = G).
          { rewrite HP. apply wg_runs. pose proof (runs_wg (pend r)) as W. rewrite ER in W. inversion W; auto. }
          assert (HB1 : forall e, In e (pend r1) -> en_off e + orig <= bs).
          { intros e I. apply HB. rewrite <- (runs_concat (pend r)), ER. cbn. apply in_or_app. right. rewrite <- HP. exact I. }
          destruct (IH r1 HB1 Ho) as (r2 & -> & A2 & A3). cbn [bind]. rewrite WG in *. exists r2. split; [|split].
          * reflexivity.
          * rewrite A2. unfold r1. cbn [r_off length]. lia.
          * rewrite A3. cbn [Nat.eqb orb length skipn]. destruct n as [|n]; cbn [Nat.eqb orb].
            -- unfold r1. cbn [r_boff skipn]. reflexivity.
            -- destruct (length G =? 0) eqn:EL; [|reflexivity]. destruct G; [|discriminate]. reflexivity.
    Qed.
  End Reader.

  (** windows *)
  Lemma entries_filter (f : nat -> bool) (L : list (nat * member Dat)) :
    entries (filter (fun om => f (fst om)) L) = filter (fun e => f (en_off e)) (entries L).
  Proof.
    induction L as [|[o m] L IH]; [reflexivity|]. cbn [filter fst].
    unfold entries at 2. cbn [flat_map fst snd]. fold (entries L). rewrite filter_app.
    destruct (f o) eqn:E.
    - unfold entries at 1. cbn [flat_map fst snd]. fold (entries (filter (fun om : nat * member Dat => f (fst om)) L)). rewrite IH.
      destruct (part_of m) as [[b x]|]; cbn [filter app en_off]; rewrite ?E; reflexivity.
    - rewrite IH. destruct (part_of m) as [[b x]|]; cbn [filter app en_off]; rewrite ?E; reflexivity.
  Qed.

  Definition shift (from : nat) (e : ent) : ent := mkE (en_off e - from) (en_base e) (en_ext e) (en_dat e).

  Lemma entries_shift from (L : list (nat * member Dat)) :
    entries (map (fun om => (fst om - from, snd om)) L) = map (shift from) (entries L).
  Proof.
    induction L as [|[o m] L IH]; [reflexivity|]. cbn [map fst snd]. unfold entries. cbn [flat_map fst snd].
    fold (entries L). unfold entries in IH. rewrite IH, map_app. f_equal. destruct (part_of m) as [[b x]|]; reflexivity.
  Qed.

  Lemma window_entries (ms : list (member Dat)) from size :
    entries (open_window ms from size) =
    map (shift from) (filter (fun e => (from <=? en_off e) && (en_off e <? from + size)) (entries (locate 0 ms))).
  Proof.
    unfold open_window. rewrite entries_shift. f_equal.
    apply (entries_filter (fun o => (from <=? o) && (o <? from + size))).
  Qed.

  (** runs only look at base names *)
  Lemma runs_map (f : ent -> ent) l : (forall e, en_base (f e) = en_base e) -> runs (map f l) = map (map f) (runs l).
  Proof.
    intros H. induction l as [|e l IH]; [reflexivity|]. cbn [map runs]. rewrite IH.
    destruct (runs l) as [|[|e' g] r]; cbn [map]; [reflexivity|reflexivity|]. rewrite !H. destruct (seqb _ _); reflexivity.
  Qed.

  Lemma live_map excl sh (f : ent -> ent) l : (forall e, en_base (f e) = en_base e) ->
    live excl sh (map f l) = map f (live excl sh l).
  Proof. intros H. unfold live. induction l as [|e l IH]; [reflexivity|]. cbn [map filter]. rewrite H, IH. destruct (excl _); reflexivity. Qed.

  Lemma expected_shift name pf i from g : expected name pf i (map (shift from) g) = expected name pf i g.
  Proof.
    unfold expected. f_equal.
    - destruct g; reflexivity.
    - unfold parts_of. generalize (@nil (string * Dat)). induction g as [|e g IH]; intros d; [reflexivity|]. cbn [map fold_left].
      rewrite IH. reflexivity.
  Qed.

  Lemma number_map {A B C} (f : nat -> B -> C) (g : A -> B) (l : list A) : forall i, number f i (map g l) = number (fun i x => f i (g x)) i l.
  Proof. induction l; intros; cbn; f_equal; auto. Qed.

  Lemma number_ext {A B} (f g : nat -> A -> B) (l : list A) : (forall i x, f i x = g i x) -> forall i, number f i l = number g i l.
  Proof. intros H. induction l; intros; cbn; f_equal; auto. Qed.

  Lemma runs_cons_le e l : length (runs (e :: l)) <= S (length (runs l)).
  Proof. cbn [runs]. destruct (runs l) as [|[|e' g] r]; cbn [length]; [lia|lia|]. destruct (seqb _ _); cbn [length]; lia. Qed.

  Lemma live_count excl sh l : length (runs (live excl sh l)) <= length (runs l).
  Proof.
    induction l as [|e l IH]; [cbn; lia|].
    assert (M : length (runs l) <= length (runs (e :: l))).
    { cbn [runs]. destruct (runs l) as [|[|e' g] r]; cbn; [lia|lia|]. destruct (seqb _ _); cbn; lia. }
    unfold live in *. cbn [filter]. destruct (excl (the_key sh (en_base e))) eqn:EX; cbn [negb]; [exact (Nat.le_trans _ _ _ IH M)|].
    destruct l as [|e1 l]; [cbn; lia|].
    destruct (seqb (en_base e) (en_base e1)) eqn:EB.
    - cbn [filter] in *. apply seqb_eq in EB. rewrite <- EB, EX in *. cbn [negb] in *.
      etransitivity; [|exact M]. etransitivity; [|exact IH]. cbn [runs]. fold (runs (filter (fun e2 => negb (excl (the_key sh (en_base e2)))) l)).
      set (X := match runs (filter _ l) with (e' :: g) :: r => _ | _ => _ end).
      assert (exists g G, X = (e1 :: g) :: G) as (g & G & ->).
      { unfold X. destruct (runs (filter _ l)) as [|[|e2 g] r]; [eauto|eauto|]. destruct (seqb _ _); eauto. }
      rewrite <- EB, seqb_refl. reflexivity.
    - set (F := filter (fun e2 => negb (excl (the_key sh (en_base e2)))) (e1 :: l)) in *.
      pose proof (runs_cons_le e F) as L1.
      assert (L2 : length (runs (e :: e1 :: l)) = S (length (runs (e1 :: l)))).
      { change (runs (e :: e1 :: l)) with (match runs (e1 :: l) with
          | (e' :: g) :: r => if seqb (en_base e) (en_base e') then (e :: e' :: g) :: r else [e] :: (e' :: g) :: r
          | r => [e] :: r end).
        destruct (@runs_nonnil (e1 :: l) ltac:(discriminate)) as (e2 & g2 & G2 & -> & H). injection H as <-. rewrite EB. reflexivity. }
      rewrite L2. etransitivity; [exact L1|]. apply le_n_S. exact IH.
  Qed.
End Proofs.
