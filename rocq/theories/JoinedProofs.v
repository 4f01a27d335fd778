From Coq Require Import String.
From Verif Require Import Base Files FilesProofs Dataset Tar TarSpec TarProofs TarProofs2 Joined JoinedSpec.
Local Open Scope list_scope.
Local Open Scope nat_scope.

Section Joined.
  Context {Dat : Type} (excl pfilter : string -> bool).
  Notation ksample := (string * rsample Dat)%type.

  Definition nexts (sh : shard) (i : nat) (G : list (list (ent Dat))) : list ksample :=
    number (fun i g => (base_of g, expected (sh_name sh) pfilter (i + sh_offset sh) g)) i G.

  (** the reader [c] is going to read [l] *)
  Definition cstate (c : creader Dat) (l : list ksample) : Prop :=
    (forall e, In e (pend excl (cr_sh c) (cr_rd c)) -> en_off e + cr_orig c <= cr_bs c) /\ cr_orig c <= cr_bs c /\
    l = nexts (cr_sh c) (r_off (cr_rd c)) (runs (pend excl (cr_sh c) (cr_rd c))).

  (** read_next for a given name *)
  Lemma read_next_want sh orig bs n (r : reader Dat) :
    read_next excl pfilter sh orig bs (Some n) true r =
    match (match r_cur r with Some e => Some (e, r_stream r) | None => next_tarinfo excl sh (r_stream r) end) with
    | None => Ok None
    | Some (e, _) => if seqb n (en_base e) then read_next excl pfilter sh orig bs None false r else Err AssertionError
    end.
  Proof.
    unfold read_next. destruct (match r_cur r with Some e => Some (e, r_stream r) | None => next_tarinfo excl sh (r_stream r) end) as [[e s]|]; [|reflexivity].
    cbn [andb]. destruct (seqb n (en_base e)) eqn:E; cbn [negb]; [|reflexivity].
    apply seqb_eq in E. subst n. rewrite seqb_refl. reflexivity.
  Qed.

  Lemma cstate_step c l : cstate c l ->
    match l with
    | [] => col_read excl pfilter None false c = Ok None /\ forall n, col_read excl pfilter (Some n) true c = Ok None
    | (k, s) :: l' => exists c', cstate c' l' /\ cr_sh c' = cr_sh c /\
        col_read excl pfilter None false c = Ok (Some (k, s, c')) /\
        forall n, col_read excl pfilter (Some n) true c = if seqb n k then Ok (Some (k, s, c')) else Err AssertionError
    end.
  Proof.
    intros (HB & Ho & ->). destruct c as [sh orig bs r]. cbn [cr_sh cr_orig cr_bs cr_rd] in *.
    pose proof (read_next_spec pfilter HB Ho) as RN. unfold col_read. cbn [cr_sh cr_orig cr_bs cr_rd].
    assert (HD : match (match r_cur r with Some e => Some (e, r_stream r) | None => next_tarinfo excl sh (r_stream r) end) with
                  | None => pend excl sh r = []
                  | Some (e, s) => pend excl sh r = e :: live excl sh (entries s) end).
    { unfold pend. destruct (r_cur r) as [e|]; [reflexivity|]. apply next_tarinfo_spec. }
    destruct (runs (pend excl sh r)) as [|g G] eqn:ER.
    - unfold nexts. cbn [number]. rewrite RN. cbn [bind]. split; [reflexivity|]. intros n. rewrite read_next_want.
      destruct (match r_cur r with Some e => Some (e, r_stream r) | None => next_tarinfo excl sh (r_stream r) end) as [[e s]|]; [|reflexivity].
      exfalso. assert (concat (runs (pend excl sh r)) = []) as C by (rewrite ER; reflexivity).
      rewrite runs_concat, HD in C. discriminate.
    - unfold nexts. cbn [number]. destruct RN as (s' & cur & E1 & E2).
      set (r1 := mkR (S (r_off r)) _ s' cur) in *.
      assert (WG : runs (pend excl sh r1) = G).
      { rewrite E2. apply wg_runs. pose proof (runs_wg (pend excl sh r)) as W. rewrite ER in W. inversion W; auto. }
      exists (mkCr sh orig bs r1). split; [|split; [reflexivity|split]].
      + split; [|split]; cbn [cr_sh cr_orig cr_bs cr_rd].
        * intros e I. apply HB. rewrite <- (runs_concat (pend excl sh r)), ER. cbn. apply in_or_app. right. rewrite <- E2. exact I.
        * exact Ho.
        * unfold nexts. rewrite WG. reflexivity.
      + rewrite E1. cbn [bind]. unfold expected, the_key. reflexivity.
      + intros n. rewrite read_next_want.
        destruct (match r_cur r with Some e => Some (e, r_stream r) | None => next_tarinfo excl sh (r_stream r) end) as [[e s]|].
        * assert (EB : en_base e = base_of g).
          { assert (C : concat (runs (pend excl sh r)) = e :: live excl sh (entries s)) by (rewrite runs_concat; exact HD).
            rewrite ER in C. cbn [concat] in C. destruct g as [|e' g].
            - exfalso. pose proof (runs_wg (pend excl sh r)) as W. rewrite ER in W. inversion W.
            - cbn in C. injection C as -> _. reflexivity. }
          rewrite EB. destruct (seqb n (base_of g)); [|reflexivity]. rewrite E1. cbn [bind]. unfold expected, the_key. reflexivity.
        * exfalso. rewrite HD in ER. discriminate.
  Qed.

  Lemma col_open_ok c : col_ok c -> exists r, col_open c (0, 0) = Ok r /\ cr_sh r = c_sh c /\ cstate r (col_samples excl pfilter c).
  Proof.
    intros (H1 & H2 & H3 & H4). destruct c as [ms idx sh]. cbn [c_ms c_idx c_sh] in *. subst idx.
    assert (H4' : sh_offset sh + sh_count sh <= length (archive_samples ms)).
    { unfold count_of in H4. rewrite index_of_runs, app_length, map_length in H4. cbn in H4. lia. }
    pose proof (@Inv_init Dat ms excl sh H1 H4') as I0.
    destruct (@open_pend Dat ms excl sh H1 H2 H4' 0 0 I0) as (r & E & R1 & R2 & P).
    unfold col_open. cbn [c_ms c_idx c_sh fst snd]. rewrite E. cbn [bind].
    rewrite (@sh_bytes_ok Dat ms sh H1 H2 H4'). cbn [bind]. eexists. split; [reflexivity|].
    split; [reflexivity|]. split; [|split]; cbn [cr_sh cr_orig cr_bs cr_rd].
    - intros e I. rewrite P in I. apply in_map_iff in I. destruct I as (e' & <- & I). cbn [skipn] in I. rewrite runs_concat in I.
      apply (@L_in Dat ms excl sh H1 H4') in I. unfold bs in *. cbn. lia.
    - lia.
    - unfold col_samples, nexts. cbn [c_ms c_sh]. rewrite R1.
      assert (EL : runs (filter (fun e => negb (excl (the_key sh (en_base e)))) (concat (slice (sh_offset sh) (sh_offset sh + sh_count sh) (archive_samples ms))))
        = runs (L ms excl sh)).
      { unfold L, live, sub, slice. replace (sh_offset sh + sh_count sh - sh_offset sh) with (sh_count sh) by lia. reflexivity. }
      rewrite EL, P. cbn [skipn]. rewrite runs_concat, runs_map by reflexivity. rewrite number_map. apply number_ext.
      intros i x. rewrite expected_shift. f_equal. destruct x; reflexivity.
  Qed.

  Lemma cols_open_ok cs : Forall col_ok cs -> exists rs, cols_open cs (map (fun _ => (0, 0)) cs) = Ok rs /\
    Forall2 (fun c r => cstate r (col_samples excl pfilter c)) cs rs.
  Proof.
    unfold cols_open. induction 1 as [|c cs H1 H2 (rs & E & F)]; [exists []; split; [reflexivity|constructor]|].
    destruct (col_open_ok H1) as (r & Er & _ & Hr). exists (r :: rs). cbn [map combine sequence fst snd]. rewrite Er, E.
    split; [reflexivity|]. constructor; auto.
  Qed.

  Lemma read_others_spec k cs ls : Forall2 cstate cs ls -> forall gs, length gs = length cs ->
    (exists cs' hl, read_others excl pfilter false k cs gs = Ok (cs', map (fun p => Some (fst p)) hl) /\
       ls = map (fun p => (k, fst p) :: snd p) hl /\ Forall2 cstate cs' (map snd hl)) \/
    (exists e, read_others excl pfilter false k cs gs = Err e /\
       exists l, In l ls /\ forall s, nth_error l 0 <> Some (k, s)).
  Proof.
    induction 1 as [|c l cs ls H HF IH]; intros [|g gs] HL; cbn in HL; try lia.
    - left. exists [], []. repeat split. constructor.
    - injection HL as HL. cbn [read_others]. pose proof (cstate_step H) as S. destruct l as [|[k' s] l].
      + destruct S as [_ S]. rewrite S. right. exists ValueError. split; [reflexivity|]. exists []. split; [left; auto|]. intros s. discriminate.
      + destruct S as (c' & Hc' & _ & _ & S). rewrite S. destruct (seqb k k') eqn:E.
        * apply seqb_eq in E. subst k'. destruct (IH gs HL) as [(cs' & hl & E1 & E2 & E3)|(e & E1 & l' & I & N)]; rewrite E1; cbn [bind].
          -- left. exists (c' :: cs'), ((s, l) :: hl). cbn [map fst snd]. rewrite E2. repeat split. constructor; auto.
          -- right. exists e. split; [reflexivity|]. exists l'. split; [right; auto|auto].
        * right. exists OtherError. split; [reflexivity|]. exists ((k', s) :: l). split; [left; auto|].
          intros s'. cbn. intros [= -> _]. rewrite seqb_refl in E. discriminate.
  Qed.

  Lemma others_done_spec cs ls : Forall2 cstate cs ls ->
    (others_done excl pfilter cs = Ok tt /\ forall l, In l ls -> l = []) \/
    (exists e, others_done excl pfilter cs = Err e /\ exists l, In l ls /\ l <> []).
  Proof.
    induction 1 as [|c l cs ls H HF IH]; [left; split; [reflexivity|intros l []]|]. cbn [others_done].
    pose proof (cstate_step H) as S. destruct l as [|[k' s] l].
    - destruct S as [-> _]. destruct IH as [(E & A)|(e & E & l & I & N)].
      + left. split; [exact E|]. intros l [<-|I]; auto.
      + right. exists e. split; [exact E|]. exists l. split; [right; auto|auto].
    - destruct S as (c' & _ & _ & -> & _). right. exists ValueError. split; [reflexivity|]. exists ((k', s) :: l). split; [left; auto|discriminate].
  Qed.

  Definition Match (ls : list (list ksample)) (i : nat) : Prop := exists k, forall l, In l ls -> exists s, nth_error l i = Some (k, s).

  Lemma mc_loop_spec n : forall c0 l0 cs ls gs, cstate c0 l0 -> Forall2 cstate cs ls -> length gs = length cs ->
    exists rows e, mc_loop excl pfilter false n c0 cs gs = (rows, e) /\ length rows <= n /\
      (forall i row, nth_error rows i = Some row ->
         Match (l0 :: ls) i /\ Forall2 (fun l g => exists k s, nth_error l i = Some (k, s) /\ g = Some s) (l0 :: ls) row) /\
      match e with
      | McMore => length rows = n
      | McStop => forall l, In l (l0 :: ls) -> length l = length rows
      | McFail _ => ~ Match (l0 :: ls) (length rows) /\ ~ (forall l, In l (l0 :: ls) -> length l = length rows)
      end.
  Proof.
    induction n as [|n IH]; intros c0 l0 cs ls gs H0 HF HL; cbn [mc_loop].
    - exists [], McMore. repeat split; auto; destruct i; discriminate.
    - pose proof (cstate_step H0) as S. destruct l0 as [|[k s] l0].
      + destruct S as [-> _]. destruct (others_done_spec HF) as [(-> & A)|(e & -> & l & I & N)].
        * exists [], McStop. split; [reflexivity|]. split; [cbn; lia|]. split; [intros [|i]; discriminate|].
          intros l [<-|I]; [reflexivity|]. rewrite (A _ I). reflexivity.
        * exists [], (McFail e). split; [reflexivity|]. split; [cbn; lia|]. split; [intros [|i]; discriminate|]. split.
          -- intros (k & A). destruct (A [] (or_introl eq_refl)) as (s & C). discriminate.
          -- intros A. specialize (A l (or_intror I)). destruct l; [congruence|discriminate].
      + destruct S as (c0' & H0' & _ & -> & _).
        destruct (@read_others_spec k cs ls HF gs HL) as [(cs' & hl & E1 & E2 & E3)|(e & E1 & l & I & N)]; rewrite E1.
        * assert (L2 : length (map (fun p : rsample Dat * list ksample => Some (fst p)) hl) = length cs').
          { assert (FL : length cs' = length (map snd hl)) by (clear -E3; induction E3; cbn; auto).
            rewrite FL, !map_length. reflexivity. }
          destruct (IH c0' l0 cs' (map snd hl) (map (fun p => Some (fst p)) hl) H0' E3 L2) as (rows & e & Em & Ln & A & B).
          rewrite Em. exists ((Some s :: map (fun p => Some (fst p)) hl) :: rows), e. split; [reflexivity|]. split; [cbn; lia|].
          assert (MS : forall i, Match (l0 :: map snd hl) i <-> Match (((k, s) :: l0) :: ls) (S i)).
          { intros i. subst ls. unfold Match. split; intros (k' & M); exists k'.
            - intros l [<-|I]; [apply (M l0 (or_introl eq_refl))|].
              apply in_map_iff in I. destruct I as (p & <- & I). cbn. apply (M (snd p)). right. apply in_map. exact I.
            - intros l [<-|I]; [apply (M _ (or_introl eq_refl))|].
              apply in_map_iff in I. destruct I as (p & <- & I).
              destruct (M ((k, fst p) :: snd p)) as (s' & C); [right; apply in_map_iff; exists p; auto|]. exists s'. exact C. }
          split.
          -- intros [|i] row Hr; cbn in Hr.
             ++ injection Hr as <-. split.
                ** exists k. intros l [<-|I]; [exists s; reflexivity|]. subst ls. apply in_map_iff in I.
                   destruct I as (p & <- & I). exists (fst p). reflexivity.
                ** constructor; [exists k, s; auto|]. subst ls. clear. induction hl as [|p hl IH]; constructor; auto.
                   exists k, (fst p). auto.
             ++ destruct (A i row Hr) as (A1 & A2). split; [apply MS; exact A1|].
                inversion A2 as [|? ? ? ? A3 A4]; subst. constructor; [exact A3|]. clear -A4.
                revert A4. generalize l' as gs'. induction hl as [|p hl IH]; intros gs' A4; cbn in *; inversion A4; subst; constructor; auto.
          -- assert (LS : (forall l, In l (l0 :: map snd hl) -> length l = length rows) <->
                          (forall l, In l (((k, s) :: l0) :: ls) -> length l = S (length rows))).
             { subst ls. split; intros M l [<-|I].
               - cbn. f_equal. apply (M l0 (or_introl eq_refl)).
               - apply in_map_iff in I. destruct I as (p & <- & I). cbn. f_equal. apply M. right. apply in_map. exact I.
               - specialize (M _ (or_introl eq_refl)). cbn in M. lia.
               - apply in_map_iff in I. destruct I as (p & <- & I). specialize (M ((k, fst p) :: snd p)). cbn in M.
                 assert (S (length (snd p)) = S (length rows)); [|lia]. apply M. right. apply in_map_iff. exists p. auto. }
             cbn [length]. destruct e.
             ++ f_equal. exact B.
             ++ apply LS. exact B.
             ++ destruct B as [B1 B2]. split; [rewrite <- MS; exact B1|]. intros C. apply B2. apply LS. exact C.
        * exists [], (McFail e). split; [reflexivity|]. split; [cbn; lia|]. split; [intros [|i]; discriminate|]. split.
          -- intros (k' & M). destruct (M _ (or_introl eq_refl)) as (s0 & C). cbn in C. injection C as -> _.
             destruct (M l (or_intror I)) as (s' & C). apply (N s'). exact C.
          -- intros A. specialize (A _ (or_introl eq_refl)). cbn in A. discriminate.
  Qed.

  Lemma matching_Match cs i : matching excl pfilter cs i <-> Match (map (col_samples excl pfilter) cs) i.
  Proof.
    unfold matching, Match. split; intros (k & H); exists k.
    - intros l I. apply in_map_iff in I. destruct I as (c & <- & I). apply H, I.
    - intros c I. apply H. apply in_map. exact I.
  Qed.

  Lemma mc_read_spec (cs : list (column Dat)) n : cs <> [] -> Forall col_ok cs ->
    exists rows e, mc_read excl pfilter false cs (map (fun _ => (0, 0)) cs) n = (rows, e) /\ length rows <= n /\
      (forall i row, nth_error rows i = Some row -> matching excl pfilter cs i /\ row_at excl pfilter cs i row) /\
      match e with
      | McMore => length rows = n
      | McStop => forall c, In c cs -> length (col_samples excl pfilter c) = length rows
      | McFail _ => ~ matching excl pfilter cs (length rows) /\
                    ~ (forall c, In c cs -> length (col_samples excl pfilter c) = length rows)
      end.
  Proof.
    intros Hne HC. destruct (cols_open_ok HC) as (rs & E & F). unfold mc_read. rewrite E.
    destruct F as [|c r cs rs H0 F]; [congruence|].
    assert (F' : Forall2 cstate rs (map (col_samples excl pfilter) cs)).
    { clear -F. induction F; constructor; auto. }
    destruct (@mc_loop_spec n r _ rs _ (repeat None (length rs)) H0 F' (repeat_length _ _)) as (rows & e & Em & Ln & A & B).
    exists rows, e. split; [exact Em|]. split; [exact Ln|]. split.
    - intros i row Hr. destruct (A i row Hr) as [A1 A2]. split; [apply matching_Match; exact A1|].
      change (col_samples excl pfilter c :: map (col_samples excl pfilter) cs) with (map (col_samples excl pfilter) (c :: cs)) in A2.
      clear -A2. unfold row_at. revert A2. generalize (c :: cs) as l. intros l. revert row. induction l as [|x l IH]; intros row A; cbn in A; inversion A; subst; constructor; auto.
    - destruct e; auto.
      + intros c' I. apply B. change (In (col_samples excl pfilter c') (map (col_samples excl pfilter) (c :: cs))). apply in_map. exact I.
      + destruct B as [B1 B2]. split; [rewrite matching_Match; exact B1|]. intros M. apply B2.
        change (forall l, In l (map (col_samples excl pfilter) (c :: cs)) -> length l = length rows).
        intros l I. apply in_map_iff in I. destruct I as (c' & <- & I). apply M, I.
  Qed.
End Joined.
