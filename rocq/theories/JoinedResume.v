(** Reading joined sub-shards in several sittings. *)
From Coq Require Import String.
From Verif Require Import Base Files FilesProofs Dataset Tar TarSpec TarProofs TarProofs2 Joined JoinedSpec JoinedProofs.
Local Open Scope list_scope.
Local Open Scope nat_scope.

Section Resume.
  Context {Dat : Type} (excl pfilter : string -> bool).
  Notation ksample := (string * rsample Dat)%type.
  Notation cst := (cstate (Dat := Dat) excl pfilter).

  (** two sets of readers that are going to read the same do the same *)
  Lemma others_same k cs1 ls : Forall2 cst cs1 ls -> forall cs2 gs1 gs2, Forall2 cst cs2 ls ->
    length gs1 = length cs1 -> length gs2 = length cs2 ->
    match read_others excl pfilter false k cs1 gs1, read_others excl pfilter false k cs2 gs2 with
    | Ok (c1, g1), Ok (c2, g2) => g1 = g2 /\ length g1 = length c1 /\ length c1 = length c2 /\
        exists ls', Forall2 cst c1 ls' /\ Forall2 cst c2 ls' /\ length ls' = length ls
    | Err e1, Err e2 => e1 = e2
    | _, _ => False
    end.
  Proof.
    induction 1 as [|c l cs ls H HF IH]; intros cs2 gs1 gs2 H2 L1 L2; inversion H2 as [|c2 ? cs2' ? H2a H2b]; subst; destruct gs1 as [|g1 gs1]; destruct gs2 as [|g2 gs2]; cbn [length] in L1, L2; try lia.
    - cbn [read_others]. split; [reflexivity|]. split; [reflexivity|]. split; [reflexivity|]. exists []. repeat split; constructor.
    - cbn [read_others]. pose proof (cstate_step H) as S1. pose proof (cstate_step H2a) as S2. destruct l as [|[k' s] l].
      + destruct S1 as [_ ->]. destruct S2 as [_ ->]. reflexivity.
      + destruct S1 as (c1' & Hc1 & _ & _ & ->). destruct S2 as (c2' & Hc2 & _ & _ & ->). destruct (seqb k k'); [|reflexivity].
        specialize (IH cs2' gs1 gs2 H2b ltac:(lia) ltac:(lia)).
        destruct (read_others excl pfilter false k cs gs1) as [[x1 y1]|]; destruct (read_others excl pfilter false k cs2' gs2) as [[x2 y2]|]; cbn [bind]; try contradiction; auto.
        destruct IH as (-> & A1 & A2 & ls' & A3 & A4 & A5). split; [reflexivity|]. cbn [length]. split; [lia|]. split; [lia|]. exists (l :: ls').
        split; [constructor; auto|]. split; [constructor; auto|cbn; lia].
  Qed.

  Lemma done_same cs1 ls : Forall2 cst cs1 ls -> forall cs2, Forall2 cst cs2 ls -> others_done excl pfilter cs1 = others_done excl pfilter cs2.
  Proof.
    induction 1 as [|c l cs ls H HF IH]; intros cs2 H2; inversion H2 as [|c2 ? cs2' ? H2a H2b]; subst; [reflexivity|].
    cbn [others_done]. pose proof (cstate_step H) as S1. pose proof (cstate_step H2a) as S2. destruct l as [|[k' s] l].
    - destruct S1 as [-> _]. destruct S2 as [-> _]. apply IH. exact H2b.
    - destruct S1 as (? & _ & _ & -> & _). destruct S2 as (? & _ & _ & -> & _). reflexivity.
  Qed.

  Lemma loop_same n : forall c1 c2 l0 cs1 cs2 ls gs1 gs2, cst c1 l0 -> cst c2 l0 -> Forall2 cst cs1 ls -> Forall2 cst cs2 ls ->
    length gs1 = length cs1 -> length gs2 = length cs2 ->
    mc_loop excl pfilter false n c1 cs1 gs1 = mc_loop excl pfilter false n c2 cs2 gs2.
  Proof.
    induction n as [|n IH]; intros c1 c2 l0 cs1 cs2 ls gs1 gs2 H1 H2 F1 F2 L1 L2; [reflexivity|]. cbn [mc_loop].
    pose proof (cstate_step H1) as S1. pose proof (cstate_step H2) as S2. destruct l0 as [|[k s] l0].
    - destruct S1 as [-> _]. destruct S2 as [-> _]. rewrite (done_same F1 F2). reflexivity.
    - destruct S1 as (c1' & Hc1 & _ & -> & _). destruct S2 as (c2' & Hc2 & _ & -> & _).
      pose proof (@others_same k _ _ F1 _ gs1 gs2 F2 L1 L2) as O.
      destruct (read_others excl pfilter false k cs1 gs1) as [[x1 y1]|]; destruct (read_others excl pfilter false k cs2 gs2) as [[x2 y2]|]; try contradiction.
      + destruct O as (<- & A1 & A2 & ls' & A3 & A4 & _). rewrite (IH c1' c2' l0 x1 x2 ls' y1 y1 Hc1 Hc2 A3 A4 A1 ltac:(congruence)). reflexivity.
      + subst. reflexivity.
  Qed.

  (** the recorded positions of a column that are consistent with its files *)
  Definition st_ok (c : column Dat) (st : nat * nat) : Prop := Inv (c_ms c) excl (c_sh c) (fst st) (snd st).

  Lemma st_start (c : column Dat) : col_ok c -> st_ok c (0, 0).
  Proof.
    intros (H1 & H2 & H3 & H4). apply Inv_init; [exact H1|]. unfold count_of in H4. rewrite index_of_runs, app_length, map_length in H4. cbn in H4. lia.
  Qed.

  (** a reader of column [c] that was opened at some recorded position *)
  Definition good (c : column Dat) (cr : creader Dat) : Prop :=
    cr_sh cr = c_sh c /\ cst cr (skipn (r_off (cr_rd cr)) (col_samples excl pfilter c)) /\ st_ok c (col_state cr) /\
    cr_bs cr = bs (c_ms c) (c_sh c) /\ cr_orig cr <= cr_bs cr /\
    pend excl (c_sh c) (cr_rd cr) = map (shift (b0 (c_ms c) (c_sh c) + cr_orig cr)) (concat (skipn (r_off (cr_rd cr)) (runs (L (c_ms c) excl (c_sh c))))) /\
    (forall e, In e (concat (skipn (r_off (cr_rd cr)) (runs (L (c_ms c) excl (c_sh c))))) -> b0 (c_ms c) (c_sh c) + cr_orig cr <= en_off e).

  Lemma sub_ok (c : column Dat) : col_ok c -> sh_offset (c_sh c) + sh_count (c_sh c) <= length (archive_samples (c_ms c)).
  Proof. intros (H1 & H2 & H3 & H4). unfold count_of in H4. rewrite index_of_runs, app_length, map_length in H4. cbn in H4. lia. Qed.

  Lemma runs_nonempty (l : list (ent Dat)) g G : runs l = g :: G -> exists e g', g = e :: g'.
  Proof. intros E. pose proof (runs_wg l) as W. rewrite E in W. inversion W; subst; eauto. Qed.

  Lemma skipn_succ {X} n (l : list X) x r : skipn n l = x :: r -> skipn (S n) l = r.
  Proof. revert l. induction n as [|n IH]; intros [|y l] E; [discriminate|cbn in *; congruence|discriminate|]. cbn [skipn] in E. change (skipn (S n) l = r). apply IH. exact E. Qed.

  Lemma good_step (c : column Dat) cr cr' k s : col_ok c -> good c cr -> col_read excl pfilter None false cr = Ok (Some (k, s, cr')) ->
    good c cr' /\ r_off (cr_rd cr') = S (r_off (cr_rd cr)) /\ exists l, skipn (r_off (cr_rd cr)) (col_samples excl pfilter c) = (k, s) :: l.
  Proof.
    intros HC (G1 & G2 & G3 & G4 & G5 & G6 & G7) E. destruct HC as (C1 & C2 & C3 & C4). pose proof (sub_ok (conj C1 (conj C2 (conj C3 C4)))) as SO.
    pose proof (cstate_step G2) as ST. destruct (skipn (r_off (cr_rd cr)) (col_samples excl pfilter c)) as [|[k0 s0] l0] eqn:ES.
    { destruct ST as [ST _]. congruence. }
    destruct ST as (c' & Hc' & Sh' & ST & _). rewrite E in ST. injection ST as -> -> <-.
    destruct G2 as (HB & Ho & _). destruct cr as [sh orig bs0 r]. cbn [cr_sh cr_orig cr_bs cr_rd] in *. subst sh bs0.
    pose proof (read_next_spec pfilter HB Ho) as RN. unfold col_read in E. cbn [cr_sh cr_orig cr_bs cr_rd] in E.
    assert (RP : runs (pend excl (c_sh c) r) = map (map (shift (b0 (c_ms c) (c_sh c) + orig))) (skipn (r_off r) (runs (L (c_ms c) excl (c_sh c))))).
    { rewrite G6, runs_map by reflexivity. f_equal. apply wg_runs, wg_skipn, runs_wg. }
    destruct (skipn (r_off r) (runs (L (c_ms c) excl (c_sh c)))) as [|g G] eqn:EG.
    { cbn [map] in RP. rewrite RP in RN. rewrite RN in E. discriminate. }
    cbn [map] in RP. rewrite RP in RN. destruct RN as (s' & cur & E1 & E2). rewrite E1 in E. cbn [bind] in E. injection E as _ _ <-.
    set (r1 := mkR (S (r_off r)) _ s' cur) in *. assert (O1 : r_off r1 = S (r_off r)) by reflexivity.
    pose proof (skipn_succ EG) as EG1. cbn [cr_rd]. split; [|split; [exact O1|exists l0; reflexivity]].
    unfold good. cbn [cr_sh cr_orig cr_bs cr_rd]. rewrite O1, (skipn_succ ES), EG1.
    split; [reflexivity|]. split; [exact Hc'|]. split; [|split; [reflexivity|split; [exact G5|split]]].
    - unfold st_ok, col_state in *. cbn [fst snd cr_rd] in *. rewrite O1.
      pose proof (proj1 (proj2 G3)) as J1. cbn [fst] in J1.
      assert (J2 : r_off r < length (runs (L (c_ms c) excl (c_sh c)))).
      { assert (length (skipn (r_off r) (runs (L (c_ms c) excl (c_sh c)))) = S (length G)) as X by (rewrite EG; reflexivity). rewrite skipn_length in X. lia. }
      pose proof (@Inv_next Dat (c_ms c) excl (c_sh c) C1 SO _ _ 1 G3 ltac:(lia) J2) as IN. rewrite Nat.min_l in IN by lia. rewrite Nat.add_1_r in IN.
      replace (r_boff r1) with (left_at (r_boff r) (bs (c_ms c) (c_sh c)) (map (shift (b0 (c_ms c) (c_sh c) + r_boff r)) (concat (skipn 1 (skipn (r_off r) (runs (L (c_ms c) excl (c_sh c)))))))); [exact IN|].
      rewrite EG. cbn [skipn]. unfold r1. cbn [r_boff]. rewrite <- concat_map.
      destruct G3 as (_ & _ & F3). rewrite EG in F3.
      destruct (concat G) as [|e l] eqn:EC; cbn [map left_at]; [reflexivity|]. cbn [shift en_off].
      assert (I1 : In e (concat (g :: G))) by (cbn [concat]; rewrite EC; apply in_or_app; right; left; reflexivity).
      pose proof (G7 e I1) as B1. rewrite <- F3 in I1. apply filter_In in I1. destruct I1 as [_ B2]. cbn [snd] in B2. lia.
    - rewrite E2, <- concat_map. reflexivity.
    - intros e I. apply G7. cbn [concat]. apply in_or_app. right. exact I.
  Qed.

  Lemma open_good (c : column Dat) st : col_ok c -> st_ok c st -> exists cr, col_open c st = Ok cr /\ good c cr /\ r_off (cr_rd cr) = fst st.
  Proof.
    intros HC HI. pose proof (sub_ok HC) as SO. destruct HC as (H1 & H2 & H3 & H4). destruct st as [j boff]. unfold st_ok in HI. cbn [fst snd] in *.
    destruct (@open_pend Dat (c_ms c) excl (c_sh c) H1 H2 SO j boff HI) as (r & E & R1 & R2 & P).
    unfold col_open. rewrite H3. cbn [fst snd]. rewrite E. cbn [bind].
    rewrite (@sh_bytes_ok Dat (c_ms c) (c_sh c) H1 H2 SO). cbn [bind]. eexists. split; [reflexivity|]. cbn [cr_rd]. split; [|exact R1].
    destruct HI as (I1 & I2 & I3).
    assert (B : forall e, In e (concat (skipn j (runs (L (c_ms c) excl (c_sh c))))) -> b0 (c_ms c) (c_sh c) + boff <= en_off e /\ en_off e < b1 (c_ms c) (c_sh c)).
    { intros e I. rewrite <- I3 in I. apply filter_In in I. destruct I as [I F]. apply (@L_in Dat (c_ms c) excl (c_sh c) H1 SO) in I. lia. }
    unfold good. cbn [cr_sh cr_orig cr_bs cr_rd]. rewrite R1. split; [reflexivity|]. split; [|split; [|split; [reflexivity|split; [exact I1|split; [exact P|]]]]].
    - split; [|split]; cbn [cr_sh cr_orig cr_bs cr_rd].
      + intros e I. rewrite P in I. apply in_map_iff in I. destruct I as (e' & <- & I). apply B in I. cbn [shift en_off]. unfold bs in *. lia.
      + exact I1.
      + unfold nexts. rewrite R1, P, runs_map by reflexivity.
        assert (RR : runs (concat (skipn j (runs (L (c_ms c) excl (c_sh c))))) = skipn j (runs (L (c_ms c) excl (c_sh c)))) by (apply wg_runs, wg_skipn, runs_wg).
        rewrite RR, number_map. unfold col_samples.
        assert (EL : runs (filter (fun e => negb (excl (the_key (c_sh c) (en_base e)))) (concat (slice (sh_offset (c_sh c)) (sh_offset (c_sh c) + sh_count (c_sh c)) (archive_samples (c_ms c)))))
          = runs (L (c_ms c) excl (c_sh c))).
        { unfold L, live, sub, slice. replace (sh_offset (c_sh c) + sh_count (c_sh c) - sh_offset (c_sh c)) with (sh_count (c_sh c)) by lia. reflexivity. }
        rewrite EL. clear. generalize (runs (L (c_ms c) excl (c_sh c))) as l.
        assert (X : forall (l : list (list (ent Dat))) i, skipn j (number (fun i g => (base_of g, expected (sh_name (c_sh c)) pfilter (i + sh_offset (c_sh c)) g)) i l) =
           number (fun i g => (base_of (map (shift (b0 (c_ms c) (c_sh c) + boff)) g), expected (sh_name (c_sh c)) pfilter (i + sh_offset (c_sh c)) (map (shift (b0 (c_ms c) (c_sh c) + boff)) g))) (j + i) (skipn j l)).
        { induction j as [|j IH]; intros l i.
          - cbn [skipn plus]. apply number_ext. intros i' x. rewrite expected_shift. f_equal. destruct x; reflexivity.
          - destruct l as [|x l]; [reflexivity|]. cbn [number skipn]. rewrite IH. f_equal. lia. }
        intros l. rewrite X, Nat.add_0_r. reflexivity.
    - unfold st_ok, col_state. cbn [fst snd cr_rd]. rewrite R1, R2. split; [|split]; auto.
    - intros e I. apply B in I. lia.
  Qed.

  Lemma cols_open_good cs : Forall col_ok cs -> forall sts, Forall2 st_ok cs sts -> exists rs, cols_open cs sts = Ok rs /\
    Forall2 good cs rs /\ map (fun r => r_off (cr_rd r)) rs = map fst sts.
  Proof.
    unfold cols_open. induction 1 as [|c cs H1 H2 IH]; intros sts F; inversion F as [|? st ? sts' F1 F2]; subst; [exists []; split; [reflexivity|]; split; [constructor|reflexivity]|].
    destruct (open_good H1 F1) as (r & Er & Gr & Or). destruct (IH _ F2) as (rs & E & G & O). exists (r :: rs). cbn [combine map sequence fst snd].
    rewrite Er. cbn [fst snd] in *. rewrite E. cbn [bind]. split; [reflexivity|]. split; [constructor; auto|]. cbn [map]. rewrite Or, O. reflexivity.
  Qed.

  Lemma good_cst c cr : good c cr -> cst cr (skipn (r_off (cr_rd cr)) (col_samples excl pfilter c)).
  Proof. intros H. apply H. Qed.

  Lemma others_good k cs : Forall col_ok cs -> forall rs gs rs' gs', Forall2 good cs rs -> length gs = length rs ->
    read_others excl pfilter false k rs gs = Ok (rs', gs') -> Forall2 good cs rs' /\ length gs' = length rs' /\
    map (fun r => r_off (cr_rd r)) rs' = map (fun r => S (r_off (cr_rd r))) rs.
  Proof.
    induction 1 as [|c cs H1 H2 IH]; intros rs gs rs' gs' F L E; inversion F as [|? r ? rs0 F1 F2]; subst; destruct gs as [|g gs]; cbn [length] in L; try lia; cbn [read_others] in E.
    - injection E as <- <-. split; [constructor|split; reflexivity].
    - pose proof (cstate_step (good_cst F1)) as ST. destruct (skipn (r_off (cr_rd r)) (col_samples excl pfilter c)) as [|[k' s'] l'] eqn:ES.
      + destruct ST as [_ ST]. rewrite ST in E. discriminate.
      + destruct ST as (c' & _ & _ & EN & ST). rewrite ST in E. destruct (seqb k k'); [|discriminate].
        destruct (read_others excl pfilter false k rs0 gs) as [[x y]|] eqn:ER; [|discriminate]. cbn [bind] in E. injection E as <- <-.
        destruct (IH rs0 gs x y F2 ltac:(lia) ER) as (A1 & A2 & A3). destruct (good_step H1 F1 EN) as (B1 & B2 & _).
        split; [constructor; auto|]. cbn [length map]. rewrite A2, A3, B2. auto.
  Qed.

  Lemma readers_good n c cs : col_ok c -> Forall col_ok cs -> forall r rs gs out, good c r -> Forall2 good cs rs -> length gs = length rs ->
    mc_readers excl pfilter n r rs gs = Ok out ->
    exists r' rs' gs' rows, out = r' :: rs' /\ good c r' /\ Forall2 good cs rs' /\ length gs' = length rs' /\ length rows = n /\
      forall m, mc_loop excl pfilter false (n + m) r rs gs = (rows ++ fst (mc_loop excl pfilter false m r' rs' gs'), snd (mc_loop excl pfilter false m r' rs' gs')).
  Proof.
    intros HC HCs. induction n as [|n IH]; intros r rs gs out G F L E; cbn [mc_readers] in E.
    - injection E as <-. exists r, rs, gs, []. repeat (split; [first [reflexivity|assumption]|]). intros m. cbn [plus app]. destruct (mc_loop excl pfilter false m r rs gs); reflexivity.
    - destruct (col_read excl pfilter None false r) as [[[[k s] r1]|]|] eqn:ER; cbn [bind] in E; try discriminate.
      destruct (read_others excl pfilter false k rs gs) as [[rs1 gs1]|] eqn:EO; cbn [bind] in E; [|discriminate].
      destruct (good_step HC G ER) as (G1 & _). destruct (others_good HCs F L EO) as (F1 & L1 & _).
      destruct (IH _ _ _ _ G1 F1 L1 E) as (r' & rs' & gs' & rows & -> & A1 & A2 & A3 & A4 & A5).
      exists r', rs', gs', ((Some s :: gs1) :: rows). split; [reflexivity|]. repeat (split; [first [assumption|cbn; lia]|]). intros m.
      cbn [plus mc_loop]. rewrite ER, EO, A5. reflexivity.
  Qed.

  Lemma readers_iff n c cs : col_ok c -> Forall col_ok cs -> forall r rs gs, good c r -> Forall2 good cs rs -> length gs = length rs ->
    (exists out, mc_readers excl pfilter n r rs gs = Ok out) <-> length (fst (mc_loop excl pfilter false n r rs gs)) = n.
  Proof.
    intros HC HCs. induction n as [|n IH]; intros r rs gs G F L; cbn [mc_readers mc_loop].
    - split; [reflexivity|intros _; eexists; reflexivity].
    - pose proof (cstate_step (good_cst G)) as ST. destruct (skipn _ _) as [|[k s] l]; [destruct ST as [-> _]|destruct ST as (r1 & _ & _ & ER & _); rewrite ER]; cbn [bind].
      + split; [intros [out X]; discriminate|discriminate].
      + destruct (read_others excl pfilter false k rs gs) as [[rs1 gs1]|] eqn:EO; cbn [bind].
        * destruct (good_step HC G ER) as (G1 & _). destruct (others_good HCs F L EO) as (F1 & L1 & _).
          rewrite (IH _ _ _ G1 F1 L1). destruct (mc_loop excl pfilter false n r1 rs1 gs1) as [rows e]. cbn [fst length]. split; intros; lia.
        * split; [intros [out X]; discriminate|discriminate].
  Qed.

  (** reading, recording the positions, reading on *)
  Lemma read_on cs sts k sts' : cs <> [] -> Forall col_ok cs -> Forall2 st_ok cs sts ->
    mc_states excl pfilter cs sts k = Ok sts' ->
    Forall2 st_ok cs sts' /\ length (fst (mc_read excl pfilter false cs sts k)) = k /\
    forall n, mc_read excl pfilter false cs sts (k + n) =
      (fst (mc_read excl pfilter false cs sts k) ++ fst (mc_read excl pfilter false cs sts' n), snd (mc_read excl pfilter false cs sts' n)).
  Proof.
    intros Hne HC HS E. destruct cs as [|c cs]; [congruence|]. inversion HC as [|? ? HC1 HC2]; subst.
    destruct (cols_open_good HC HS) as (rs & EO & GO & _). unfold mc_states in E. rewrite EO in E. cbn [bind] in E.
    inversion GO as [|? r ? rs0 G1 G2]; subst. destruct (mc_readers excl pfilter k r rs0 (repeat None (length rs0))) as [out|] eqn:ER; [|discriminate]. cbn [bind] in E. injection E as <-.
    destruct (readers_good HC1 HC2 G1 G2 (repeat_length _ _) ER) as (r' & rs' & gs' & rows & -> & A1 & A2 & A3 & A4 & A5).
    assert (S' : Forall2 st_ok (c :: cs) (map (@col_state Dat) (r' :: rs'))).
    { cbn [map]. constructor; [apply A1|]. clear - A2. induction A2; cbn [map]; constructor; auto. apply H. }
    split; [exact S'|].
    assert (RK : fst (mc_read excl pfilter false (c :: cs) sts k) = rows).
    { unfold mc_read. rewrite EO. cbn iota. pose proof (A5 0) as X. rewrite Nat.add_0_r in X. refine (eq_trans (f_equal fst X) _). cbn [mc_loop fst]. apply app_nil_r. }
    rewrite RK. split; [exact A4|]. intros n. unfold mc_read at 1. rewrite EO. cbn iota. refine (eq_trans (A5 n) _).
    destruct (cols_open_good HC S') as (rs2 & EO2 & GO2 & OO2). inversion GO2 as [|? r2 ? rs02 G3 G4]; subst. cbn [map] in OO2. injection OO2 as O1 O2.
    unfold mc_read. rewrite EO2. cbn iota.
    assert (LS : mc_loop excl pfilter false n r' rs' gs' = mc_loop excl pfilter false n r2 rs02 (repeat None (length rs02))).
    { apply (loop_same n (l0 := skipn (r_off (cr_rd r')) (col_samples excl pfilter c)) (ls := map (fun p => skipn (r_off (cr_rd (snd p))) (col_samples excl pfilter (fst p))) (combine cs rs'))).
      - apply good_cst. exact A1.
      - rewrite <- O1. apply good_cst. exact G3.
      - clear - A2. induction A2; cbn [combine map]; constructor; auto. cbn [fst snd]. apply good_cst. exact H.
      - clear - A2 G4 O2. revert rs02 G4 O2. induction A2 as [|x y cs rs' H HF IH]; intros rs02 G4 O2; inversion G4 as [|? z ? rs1 G5 G6]; subst; cbn [combine map] in *; [constructor|].
        injection O2 as O3 O4. constructor; [cbn [fst snd]; rewrite <- O3; apply good_cst; exact G5|apply IH; assumption].
      - exact A3.
      - apply repeat_length. }
    rewrite LS. reflexivity.
  Qed.

  Lemma read_reaches cs sts k : cs <> [] -> Forall col_ok cs -> Forall2 st_ok cs sts ->
    length (fst (mc_read excl pfilter false cs sts k)) = k -> exists sts', mc_states excl pfilter cs sts k = Ok sts'.
  Proof.
    intros Hne HC HS E. destruct cs as [|c cs]; [congruence|]. inversion HC as [|? ? HC1 HC2]; subst.
    destruct (cols_open_good HC HS) as (rs & EO & GO & _). unfold mc_states, mc_read in *. rewrite EO in *. cbn [bind].
    inversion GO as [|? r ? rs0 G1 G2]; subst.
    destruct (proj2 (readers_iff k HC1 HC2 G1 G2 (repeat_length _ _)) E) as (out & EQ).
    exists (map (@col_state Dat) out). cbn iota. refine (eq_trans (f_equal (fun x => bind x (fun rs' => Ok (map (@col_state Dat) rs'))) EQ) _). reflexivity.
  Qed.
End Resume.
