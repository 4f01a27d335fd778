(** C77: the debug logs name every batch, and every process has its own file. *)
From Coq Require Import String ZArith.
From Verif Require Import Base Dataset DatasetProofs Wrap WrapProofs WrapSpec Wrappers WorkerConfig DebugLog P_Worker.
Local Open Scope string_scope.
Local Open Scope list_scope.
Local Open Scope nat_scope.

(* ---------------- specification ---------------- *)
(** A process of a rank: the main process (None), or the worker that torch calls [Some i]; [off] is how far the workers of the rank
    are shifted after a restore.  It is not restoring a single sample. *)
Definition runs_as (c : wcfg) (r : Z) (n : Z) (off : Z) (who : option Z) (e : wenv) : Prop :=
  rank c = r /\ num_workers c = n /\ override e = None /\
  match who with
  | None => winfo e = None /\ id_offset e = 0%Z
  | Some i => winfo e = Some (i, n) /\ (0 <= i < n)%Z /\ id_offset e = off /\ (0 <= off < n)%Z
  end.

(** what process [k] has logged *)
Definition entries_of (k : nat) (evs : list logev) : bytes := concat (map snd (filter (fun ev => fst (fst ev) =? k) evs)).
Definition logs (k : nat) (evs : list logev) : Prop := exists e d, In (k, e, d) evs.

(** the states of worker [w] after [n] batches, over any number of epochs, saves and restores *)
Inductive counted {P} (D : dataset P) (w nw : nat) : st D -> nat -> Prop :=
| cn_init : counted w nw (fresh D) 0
| cn_yield s n a s' : counted w nw s n -> next w s (Yield a) s' -> counted w nw s' (S n)
| cn_done s n s' : counted w nw s n -> next w s Done s' -> counted w nw (fst s', ds_iter D) n
| cn_restore s n sts : counted w nw s n -> length sts = nw -> nth_error sts w = Some (Some (ds_save D w (fst s))) ->
    counted w nw (ds_restore D (Some (ds_merge D sts)) (ds_init D), ds_iter D) n.

(* ---------------- the numbers of the processes ---------------- *)
Section Numbers.
  Local Open Scope Z_scope.
  Lemma shifted n off i : 0 <= i < n -> 0 <= off < n ->
    ((i + n - off) mod n = i - off \/ (i + n - off) mod n = i + n - off) /\ 0 <= (i + n - off) mod n < n.
  Proof.
    intros Hi Ho. split; [|apply Z.mod_pos_bound; lia]. destruct (Z_lt_le_dec i off).
    - right. apply Z.mod_small. lia.
    - left. symmetry. apply (Z.mod_unique _ _ 1); lia.
  Qed.

  Lemma log_id_runs c e r n off who : 0 <= n -> runs_as c r n off who e -> exists x,
    log_id c e = Ok (r * (n + 1) + x) /\ 0 <= x < n + 1 /\
    match who with None => x = 0 | Some i => 0 <= i < n /\ 0 <= off < n /\ x = (i + n - off) mod n + 1 end.
  Proof.
    intros Hn (<- & <- & Ho & H). unfold log_id, rank_worker_id. rewrite Ho. destruct who as [i|].
    - destruct H as (-> & Hi & -> & Hoff). rewrite Z.eqb_refl. cbn [negb]. destruct (Z.eqb_spec (num_workers c) 0); [lia|]. cbn [bind].
      exists ((i + num_workers c - off) mod num_workers c + 1). split; [f_equal; ring|]. split; [|auto]. destruct (shifted Hi Hoff). lia.
    - destruct H as (-> & ->). cbn [bind]. exists 0. split; [f_equal; ring|]. split; [lia|reflexivity].
  Qed.

  (** Every process has a number, and no two processes of the whole job have the same: neither of different ranks, nor of one rank. *)
  Theorem C77_log_numbers : forall (n : Z) c1 c2 e1 e2 r1 r2 off1 off2 who1 who2,
    0 <= n -> runs_as c1 r1 n off1 who1 e1 -> runs_as c2 r2 n off2 who2 e2 -> (r1 = r2 -> off1 = off2) ->
    exists i1 i2, log_id c1 e1 = Ok i1 /\ log_id c2 e2 = Ok i2 /\
      (r1 * (n + 1) <= i1 < (r1 + 1) * (n + 1)) /\ (i1 = i2 <-> r1 = r2 /\ who1 = who2).
  Proof.
    intros n c1 c2 e1 e2 r1 r2 off1 off2 who1 who2 Hn H1 H2 HO.
    destruct (log_id_runs Hn H1) as (x1 & E1 & B1 & W1). destruct (log_id_runs Hn H2) as (x2 & E2 & B2 & W2).
    exists (r1 * (n + 1) + x1), (r2 * (n + 1) + x2). split; [exact E1|]. split; [exact E2|]. split; [lia|]. split.
    - intros E. assert (ER : r1 = r2).
      { destruct (Z.lt_trichotomy r1 r2) as [L | [L | L]]; [|exact L|]; exfalso; nia. }
      split; [exact ER|]. subst r2. assert (EX : x1 = x2) by lia. specialize (HO eq_refl). subst off2.
      destruct who1 as [i|], who2 as [j|]; [|destruct W1 as (A & B & C); destruct (shifted A B); lia|destruct W2 as (A & B & C); destruct (shifted A B); lia|reflexivity].
      destruct W1 as (A & B & C), W2 as (A' & _ & C'). destruct (shifted A B), (shifted A' B). f_equal. lia.
    - intros [-> ->]. specialize (HO eq_refl). subst off2. f_equal. destruct who2; [|congruence]. destruct W1 as (_ & _ & ->), W2 as (_ & _ & ->). reflexivity.
  Qed.
End Numbers.

(* ---------------- the files ---------------- *)
Section Files.
  Variable fmt : Z -> Z -> string.

  Lemma write_end (c d : bytes) : write_at (length c) d c = c ++ d.
  Proof.
    unfold write_at. rewrite Nat.sub_diag. cbn [repeat]. rewrite app_nil_r, firstn_all, skipn_all2 by lia. rewrite app_nil_r. reflexivity.
  Qed.

  Section Run.
    Variables (lid : nat -> Z) (pth : nat -> string) (n : nat).
    Hypothesis HD : forall j k, j < n -> k < n -> pth j = pth k -> j = k.

    Definition proc_ok (f : fs) (cont : nat -> option bytes) (k : nat) (p : proc) : Prop :=
      pth k = fmt (lid k) (p_pid p) /\
      match cont k with
      | None => match p_file p with None => True | Some (i, _) => i <> lid k end
      | Some c => p_file p = Some (lid k, (pth k, length c)) /\ f (pth k) = Some c
      end.

    Lemma run_logs_ok : forall (evs : list logev) (ps : list proc) (f : fs) (cont : nat -> option bytes), length ps = n ->
      (forall k p, nth_error ps k = Some p -> proc_ok f cont k p) ->
      (forall k e d, In (k, e, d) evs -> exists p, nth_error ps k = Some p /\ log_id (p_cfg p) e = Ok (lid k)) ->
      exists ps' f', run_logs fmt evs ps f = Ok (ps', f') /\
        (forall k, k < n -> logs k evs -> f' (pth k) = Some ((match cont k with Some c => c | None => [] end) ++ entries_of k evs)) /\
        (forall q, (forall k, logs k evs -> q <> pth k) -> f' q = f q).
    Proof.
      induction evs as [|[[k e] d] evs IH]; intros ps f cont HL HP HE.
      - exists ps, f. split; [reflexivity|]. split; [intros k _ (? & ? & [])|reflexivity].
      - destruct (HE k e d (or_introl eq_refl)) as (p & Hp & HI). cbn [run_logs]. rewrite Hp. unfold worker_log. rewrite HI. cbn [bind].
        assert (Hk : k < n) by (rewrite <- HL; apply nth_error_Some; congruence).
        destruct (HP k p Hp) as [HPath HC]. set (c0 := match cont k with Some c => c | None => [] end).
        assert (S1 : exists f1, (match p_file p with
            | Some (j, (path, off)) => if (j =? lid k)%Z then (path, off, f) else (fmt (lid k) (p_pid p), 0, put (fmt (lid k) (p_pid p)) [] f)
            | None => (fmt (lid k) (p_pid p), 0, put (fmt (lid k) (p_pid p)) [] f) end) = (pth k, length c0, f1) /\
            f1 (pth k) = Some c0 /\ forall q, q <> pth k -> f1 q = f q).
        { subst c0. destruct (cont k) as [c|].
          - destruct HC as [-> HF]. rewrite Z.eqb_refl. exists f. auto.
          - rewrite <- HPath. assert (O : exists f1, (pth k, 0, put (pth k) [] f) = (pth k, length (@nil nat), f1) /\ f1 (pth k) = Some [] /\ forall q, q <> pth k -> f1 q = f q).
            { eexists. split; [reflexivity|]. unfold put. rewrite String.eqb_refl. split; [reflexivity|]. intros q Hq. destruct (String.eqb_spec q (pth k)); [contradiction|reflexivity]. }
            destruct (p_file p) as [[j [path off]]|]; [|exact O]. destruct (Z.eqb_spec j (lid k)); [contradiction|exact O]. }
        destruct S1 as (f1 & -> & F1 & F2). cbn beta iota. rewrite F1, write_end.
        set (p' := mkProc (p_pid p) (p_cfg p) (Some (lid k, (pth k, length c0 + length d)))).
        set (f2 := put (pth k) (c0 ++ d) f1).
        destruct (IH (upd ps k p') f2 (fun j => if j =? k then Some (c0 ++ d) else cont j)) as (ps' & f' & R & G1 & G2).
        + rewrite upd_length. exact HL.
        + intros j q Hq. destruct (Nat.eq_dec j k) as [->|N].
          * rewrite nth_error_upd_same in Hq by (apply nth_error_Some; congruence). injection Hq as <-. split; [exact HPath|]. rewrite Nat.eqb_refl. subst p' f2. cbn [p_file].
            rewrite app_length. split; [reflexivity|]. unfold put. rewrite String.eqb_refl. reflexivity.
          * rewrite nth_error_upd_other in Hq by congruence. destruct (HP j q Hq) as [Q1 Q2]. split; [exact Q1|]. destruct (Nat.eqb_spec j k); [contradiction|].
            destruct (cont j) as [c|]; [|exact Q2]. destruct Q2 as [Q2 Q3]. split; [exact Q2|].
            assert (NP : pth j <> pth k). { intros E. apply N. apply HD; auto. rewrite <- HL. apply nth_error_Some. congruence. }
            subst f2. unfold put. destruct (String.eqb_spec (pth j) (pth k)); [contradiction|]. rewrite F2; auto.
        + intros j e' d' Hin. destruct (HE j e' d' (or_intror Hin)) as (q & Q1 & Q2). destruct (Nat.eq_dec j k) as [->|N].
          * exists p'. rewrite nth_error_upd_same by (apply nth_error_Some; congruence). split; [reflexivity|]. subst p'. cbn [p_cfg]. congruence.
          * exists q. rewrite nth_error_upd_other by congruence. auto.
        + exists ps', f'. split; [exact R|]. split.
          * intros j Hj Lj. destruct (Nat.eq_dec j k) as [->|N].
            -- unfold entries_of. cbn [filter fst]. rewrite Nat.eqb_refl. cbn [map snd concat]. fold (entries_of k evs). fold c0.
               assert (DL : logs k evs \/ ~ logs k evs).
               { clear. induction evs as [|[[j e] d] evs IH]; [right; intros (? & ? & [])|]. destruct (Nat.eq_dec j k) as [->|N]; [left; exists e, d; left; reflexivity|].
                 destruct IH as [(e' & d' & H)|H]; [left; exists e', d'; right; exact H|]. right. intros (e' & d' & [[= ? ? ?]|H']); [contradiction|]. apply H. exists e', d'. exact H'. }
               destruct DL as [DL|DL].
               ++ rewrite (G1 k Hk DL). rewrite Nat.eqb_refl, app_assoc. reflexivity.
               ++ assert (E0 : entries_of k evs = []).
                  { clear - DL. unfold entries_of. induction evs as [|[[j e] d] evs IH]; [reflexivity|]. cbn [filter fst]. destruct (Nat.eqb_spec j k) as [->|N].
                    - exfalso. apply DL. exists e, d. left. reflexivity.
                    - apply IH. intros (e' & d' & H). apply DL. exists e', d'. right. exact H. }
                  rewrite E0, app_nil_r, G2.
                  ** subst f2. unfold put. rewrite String.eqb_refl. reflexivity.
                  ** intros j Lj' E. assert (j < n). { destruct Lj' as (e' & d' & H). destruct (HE j e' d' (or_intror H)) as (q & Q & _). rewrite <- HL. apply nth_error_Some. congruence. }
                     apply HD in E; auto. subst j. contradiction.
            -- rewrite (G1 j Hj). 
               ++ unfold entries_of. cbn [filter fst]. destruct (Nat.eqb_spec j k); [contradiction|]. destruct (Nat.eqb_spec k j); [congruence|]. reflexivity.
               ++ destruct Lj as (e' & d' & [[= ? ? ?]|H]); [congruence|]. exists e', d'. exact H.
          * intros q Hq. rewrite G2.
            -- subst f2. unfold put. assert (Nq : q <> pth k) by (apply Hq; exists e, d; left; reflexivity). destruct (String.eqb_spec q (pth k)); [contradiction|]. apply F2. exact Nq.
            -- intros j (e' & d' & H). apply Hq. exists e', d'. right. exact H.
    Qed.
  End Run.

  (** Whatever the order in which the processes of a job log, if the file name contains the number of the process, then in the end the
      file of every process that logged contains its entries, all of them, in its order, and nothing else; other files are untouched.
      A forked worker may have inherited the file of its main process. *)
  Theorem C77_logs_complete : forall (n : Z) (off : Z -> Z) (who : nat -> Z * option Z) (evs : list logev) (ps : list proc) (f : fs),
    (0 <= n)%Z -> (forall i j p q, fmt i p = fmt j q -> i = j) ->
    (forall j k, j < length ps -> k < length ps -> who j = who k -> j = k) ->
    (forall k p, nth_error ps k = Some p -> p_file p = None \/ exists i x, snd (who k) = Some i /\ p_file p = Some ((fst (who k) * (n + 1))%Z, x)) ->
    (forall k p, nth_error ps k = Some p -> exists e, runs_as (p_cfg p) (fst (who k)) n (off (fst (who k))) (snd (who k)) e) ->
    (forall k e d, In (k, e, d) evs -> exists p, nth_error ps k = Some p /\ runs_as (p_cfg p) (fst (who k)) n (off (fst (who k))) (snd (who k)) e) ->
    exists (file : nat -> string) ps' f', run_logs fmt evs ps f = Ok (ps', f') /\
      (forall j k, j < length ps -> k < length ps -> file j = file k -> j = k) /\
      (forall k, logs k evs -> f' (file k) = Some (entries_of k evs)) /\
      (forall q, (forall k, logs k evs -> q <> file k) -> f' q = f q).
  Proof.
    intros n off who evs ps f Hn HF HW HI HR HE.
    set (lid := fun k => (fst (who k) * (n + 1) + match snd (who k) with None => 0 | Some i => (i + n - off (fst (who k))) mod n + 1 end)%Z).
    set (pth := fun k => fmt (lid k) (match nth_error ps k with Some p => p_pid p | None => 0%Z end)).
    assert (LI : forall k c e, runs_as c (fst (who k)) n (off (fst (who k))) (snd (who k)) e -> log_id c e = Ok (lid k)).
    { intros k c e H. destruct (log_id_runs Hn H) as (x & E & _ & W). rewrite E. subst lid. cbn beta. destruct (snd (who k)); [destruct W as (_ & _ & ->)|subst x]; reflexivity. }
    assert (HD : forall j k, j < length ps -> k < length ps -> pth j = pth k -> j = k).
    { intros j k Hj Hk E. apply HF in E. apply HW; auto. apply nth_error_Some in Hj, Hk.
      destruct (nth_error ps j) as [p|] eqn:Ep; [|congruence]. destruct (nth_error ps k) as [q|] eqn:Eq; [|congruence].
      destruct (HR j p Ep) as [e1 R1]. destruct (HR k q Eq) as [e2 R2].
      destruct (C77_log_numbers Hn R1 R2) as (i1 & i2 & E1 & E2 & _ & IF); [intros ->; reflexivity|].
      rewrite (LI _ _ _ R1) in E1. rewrite (LI _ _ _ R2) in E2. injection E1 as <-. injection E2 as <-. destruct (proj1 IF E) as [A B].
      destruct (who j), (who k). cbn [fst snd] in *. congruence. }
    destruct (@run_logs_ok lid pth (length ps) HD evs ps f (fun _ => None) eq_refl) as (ps' & f' & R & G1 & G2).
    - intros k p Hp. split; [subst pth; cbn beta; rewrite Hp; reflexivity|]. destruct (HI k p Hp) as [-> | (i & x & Hw & ->)]; [exact I|].
      destruct (HR k p Hp) as [e Re]. destruct (log_id_runs Hn Re) as (y & E & B & W). rewrite Hw in W. destruct W as (A1 & A2 & ->).
      subst lid. cbn beta. rewrite Hw. destruct (shifted A1 A2). lia.
    - intros k e d H. destruct (HE k e d H) as (p & Hp & Hr). exists p. split; [exact Hp|]. apply LI. exact Hr.
    - exists pth, ps', f'. split; [exact R|]. split; [exact HD|]. split; [|exact G2]. intros k Lk. rewrite G1; [reflexivity| |exact Lk].
      destruct Lk as (e & d & H). destruct (HE k e d H) as (p & Hp & _). apply nth_error_Some. congruence.
  Qed.
End Files.

(* ---------------- the numbers of the entries ---------------- *)
Section Entries.
  Context {A : Type} (nw : nat) (D : dataset A) (w : nat).
  Let W := wrap (log_ds nw) D.

  Lemma log_nextn_loc n : forall (s : st W) e s', nextn w n s = Some (e, s') ->
    w_loc (fst s') = match e with Yield _ => upd (w_loc (fst s)) w (S (nth w (w_loc (fst s)) 0)) | _ => w_loc (fst s) end.
  Proof.
    induction n as [|n IH]; intros [[lo io it] sg] e s' H; [discriminate|]. cbn [nextn] in H. unfold W in H at 2. cbn [wrap ds_step fst snd] in H.
    unfold wrap_step in H. cbn [log_ds idx_ds t_act w_loc w_in w_it] in H.
    destruct (ds_step D w io (cur_it it)) as [[o g] ev]. destruct ev as [a| | |x]; cbn [fst snd w_loc] in *.
    - injection H as <- <-. reflexivity.
    - apply IH in H. exact H.
    - injection H as <- <-. reflexivity.
    - injection H as <- <-. reflexivity.
  Qed.

  (** The entries of a worker are numbered 0, 1, 2, ... without a gap: through any number of epochs, and through saving and restoring
      (batches that are repeated after a restore get the numbers they had). *)
  Theorem C77_entries_numbered (s : st W) n : w < nw -> counted w nw s n ->
    log_number (A := A) (nw := nw) w (w_loc (fst s)) = n.
  Proof.
    intros Hw H. enough (G : nth w (w_loc (fst s)) 0 = n /\ length (w_loc (fst s)) = nw) by apply G.
    induction H as [|s n a s' H [I1 I2] N|s n s' H [I1 I2] N|s n sts H [I1 I2] HL HS].
    - cbn. split; [apply nth_repeat|apply repeat_length].
    - destruct N as [k N]. apply log_nextn_loc in N. cbn beta iota in N. rewrite N, upd_length. split; [|exact I2].
      rewrite nth_upd_same by lia. f_equal. exact I1.
    - destruct N as [k N]. apply log_nextn_loc in N. cbn [fst]. rewrite N. auto.
    - cbn [W wrap ds_restore ds_merge fst w_loc log_ds idx_ds t_restore t_merge]. unfold restore_nat, merge_nat. cbn [option_map fst]. split.
      + apply nth_error_nth. rewrite <- I1. exact (map_nth_error (fun x : option nat => match x with None => 0 | Some m => m end) w _ (map_nth_error (option_map fst) w sts HS)).
      + etransitivity; [apply map_length|]. etransitivity; [apply map_length|]. exact HL.
  Qed.
End Entries.

(* ---------------- the keys of an entry ---------------- *)
(** A batch that is an object or a dict with a list of strings as __key__ is logged with exactly these keys, in this order. *)
Theorem C77_keys_of_batch : forall (ks : list string) (rest : list (string * pyv)),
  default_get_keys (KObj (("__key__", KList (map KStr ks)) :: rest)) = Ok (Some (KList (map KStr ks))) /\
  default_get_keys (KDict (("__key__", KList (map KStr ks)) :: rest)) = Ok (Some (KList (map KStr ks))).
Proof.
  intros ks rest. assert (E : forallb is_str (map KStr ks) = true) by (induction ks; auto).
  split; unfold default_get_keys; cbn; rewrite E; reflexivity.
Qed.

(** What is logged as keys is something the batch (the first one, of a list of batches) has under one of three names; for an object
    it is a list of strings. *)
Theorem C77_keys_sound : forall batch k, default_get_keys batch = Ok (Some k) ->
  exists b, (batch = b \/ exists l, batch = KList (b :: l)) /\
    ((exists a n, b = KObj a /\ (n = "__key__" \/ n = "__keys__") /\ kfind n a = Some k /\ exists ks, k = KList (map KStr ks)) \/
     (exists d n, b = KDict d /\ (n = "__key__" \/ n = "__keys__" \/ n = "keys") /\ kfind n d = Some k /\
        ((exists ks, k = KList (map KStr ks)) \/ (exists s, k = KStr s) \/ exists d', k = KDict d'))).
Proof.
  intros batch k H. unfold default_get_keys in H. destruct (first_of batch) as [b|] eqn:EB; [|discriminate]. cbn [bind] in H.
  assert (SL : forall l, forallb is_str l = true -> exists ks, l = map KStr ks).
  { induction l as [|x l IH]; intros E; [exists []; reflexivity|]. cbn in E. apply andb_prop in E as [E1 E2]. destruct (IH E2) as [ks ->].
    destruct x; try discriminate. exists (s :: ks). reflexivity. }
  assert (AK : forall n, attr_keys n b = Some k -> exists a, b = KObj a /\ kfind n a = Some k /\ exists ks, k = KList (map KStr ks)).
  { intros n E. destruct b as [| | |a|]; try discriminate. cbn in E. destruct (kfind n a) as [[|l| | |]|] eqn:EK; try discriminate.
    destruct (forallb is_str l) eqn:EL; [|discriminate]. injection E as <-. exists a. split; [reflexivity|]. split; [exact EK|].
    destruct (SL l EL) as [ks ->]. eauto. }
  assert (IK : forall n, item_keys n b = Ok (Some k) -> exists d, b = KDict d /\ kfind n d = Some k /\
    ((exists ks, k = KList (map KStr ks)) \/ (exists s, k = KStr s) \/ exists d', k = KDict d')).
  { intros n E. destruct b as [| |d| |]; try discriminate. cbn in E. destruct (kfind n d) as [v|] eqn:EK; [|discriminate].
    destruct v as [s|l|d'|a|m]; cbn in E; try discriminate.
    - injection E as <-. exists d. split; [reflexivity|]. split; [exact EK|]. right. left. eauto.
    - destruct (forallb is_str l) eqn:EL; [|discriminate]. injection E as <-. exists d. split; [reflexivity|]. split; [exact EK|]. left. destruct (SL l EL) as [ks ->]. eauto.
    - injection E as <-. exists d. split; [reflexivity|]. split; [exact EK|]. right. right. eauto. }
  exists b. split.
  { destruct batch as [|[|x l]| | |]; cbn in EB; try discriminate; injection EB as <-; eauto. }
  destruct (attr_keys "__key__" b) as [k1|] eqn:E1.
  { injection H as ->. destruct (AK _ E1) as (a & ? & ? & ?). left. exists a, "__key__". auto. }
  destruct (attr_keys "__keys__" b) as [k1|] eqn:E2.
  { injection H as ->. destruct (AK _ E2) as (a & ? & ? & ?). left. exists a, "__keys__". auto. }
  right. destruct (item_keys "__key__" b) as [[k1|]|] eqn:E3; cbn [bind] in H; [|destruct (item_keys "__keys__" b) as [[k1|]|] eqn:E4; cbn [bind] in H|discriminate].
  - injection H as ->. destruct (IK _ E3) as (d & ? & ? & ?). exists d, "__key__". auto.
  - injection H as ->. destruct (IK _ E4) as (d & ? & ? & ?). exists d, "__keys__". auto.
  - destruct (IK _ H) as (d & ? & ? & ?). exists d, "keys". auto.
  - discriminate.
Qed.

(** Finding: samples that are not batched are logged without their key (objects), or with the key as one string, which the reader of the
    logs takes letter by letter (dicts); of a list of samples only the first counts; and an empty list ends the training with an
    IndexError, a number as __key__ with a TypeError, although only logging was asked for. *)
Theorem C77_unbatched_refuted : forall (key : string) (b : pyv) (l : list pyv) (x : nat) rest,
  default_get_keys (KObj [("__key__", KStr key)]) = Ok None /\
  default_get_keys (KDict (("__key__", KStr key) :: rest)) = Ok (Some (KStr key)) /\
  ((forall m, b <> KList m) -> default_get_keys (KList (b :: l)) = default_get_keys b) /\
  default_get_keys (KList []) = Err IndexError /\
  default_get_keys (KDict (("__key__", KOther x) :: rest)) = Err TypeError.
Proof.
  intros key b l x rest. split; [reflexivity|]. split; [reflexivity|]. split; [|split; reflexivity].
  intros H. unfold default_get_keys. f_equal. destruct b as [|m| | |]; try reflexivity. exfalso. eapply H. reflexivity.
Qed.

(* ---------------- restoring a single sample while logging ---------------- *)
(** Finding: loader.restore_sample (savable_loader.py:128, 582) sets the global rank override in the main process; what is logged
    meanwhile (single_shard_reader.py:82, level 2) goes to the file of another worker number, and the next entry of the main process
    opens the main file again, with mode "w": everything that the main process had logged before is gone.  If the file name has no pid,
    the file of that worker is emptied too. *)
Theorem C77_restore_sample_refuted : forall (fmt : Z -> Z -> string) (c : wcfg) (pid g : Z) (before during after_ : bytes) (f : fs),
  let n := num_workers c in
  let main := mkEnv None 0 false [] None in                       (* the main process *)
  let restoring := mkEnv None 0 true [0%Z] (Some g) in            (* ... inside restore_sample of a sample of global worker g *)
  let id := (rank c * (n + 1))%Z in
  (0 < n)%Z -> (0 < g mod n)%Z -> (forall i j p q, fmt i p = fmt j q -> i = j) ->
  exists p' f',
    run_logs fmt [(0, main, before); (0, restoring, during); (0, main, after_)] [mkProc pid c None] f = Ok ([p'], f') /\
    f' (fmt id pid) = Some after_ /\
    (exists i e, (0 <= i < n)%Z /\ runs_as c (rank c) n 0 (Some i) e /\ log_id c e = Ok (id + g mod n)%Z) /\
    f' (fmt (id + g mod n)%Z pid) = Some during.
Proof.
  intros fmt c pid g before during after_ f n main restoring id Hn Hg HF.
  assert (L1 : log_id c main = Ok id). { unfold log_id. cbn. f_equal. subst id n. ring. }
  assert (L2 : log_id c restoring = Ok (id + g mod n)%Z).
  { unfold log_id, rank_worker_id. cbn [override restoring id_offset winfo]. destruct (Z.eq_dec g 0) as [->|Ng]; [rewrite Zmod_0_l in Hg; lia|].
    assert (EG : (match Some g with Some 0%Z => None | o => o end) = Some g) by (destruct g; [contradiction| |]; reflexivity). rewrite EG.
    rewrite Z.eqb_refl. cbn [negb]. fold n. destruct (Z.eqb_spec n 0); [lia|]. cbn [bind]. f_equal. subst id. fold n. ring. }
  assert (NE : (id =? id + g mod n)%Z = false) by (apply Z.eqb_neq; lia).
  assert (NE' : (id + g mod n =? id)%Z = false) by (apply Z.eqb_neq; lia).
  cbn [run_logs nth_error]. unfold worker_log at 1. cbn [p_cfg p_file p_pid]. rewrite L1. cbn [bind upd].
  unfold worker_log at 1. cbn [p_cfg p_file p_pid]. rewrite L2. cbn [bind]. rewrite NE. cbn [bind upd].
  unfold worker_log. cbn [p_cfg p_file p_pid]. rewrite L1. cbn [bind]. rewrite NE'. cbn [bind upd].
  eexists _, _. split; [reflexivity|].
  assert (DF : fmt (id + g mod n)%Z pid <> fmt id pid) by (intros E; apply HF in E; lia).
  split.
  { unfold put at 1. rewrite String.eqb_refl. unfold put at 1. rewrite String.eqb_refl. f_equal. exact (write_end [] after_). }
  split.
  { exists (g mod n - 1)%Z, (mkEnv (Some (g mod n - 1, n)%Z) 0 false [] None). pose proof (Z.mod_pos_bound g n Hn) as B.
    split; [lia|]. assert (R : runs_as c (rank c) n 0 (Some (g mod n - 1)%Z) (mkEnv (Some (g mod n - 1, n)%Z) 0 false [] None)).
    { unfold runs_as. cbn. split; [reflexivity|]. split; [reflexivity|]. split; [reflexivity|]. split; [reflexivity|]. lia. }
    split; [exact R|]. destruct (log_id_runs (Z.lt_le_incl _ _ Hn) R) as (x & -> & _ & _ & _ & ->). f_equal. subst id.
    replace (g mod n - 1 + n - 0)%Z with (g mod n - 1 + 1 * n)%Z by ring. rewrite Z_mod_plus_full, Z.mod_small by lia. ring. }
  unfold put at 1. destruct (String.eqb_spec (fmt (id + g mod n)%Z pid) (fmt id pid)); [contradiction|].
  unfold put at 1. destruct (String.eqb_spec (fmt (id + g mod n)%Z pid) (fmt id pid)); [contradiction|].
  unfold put at 1. rewrite String.eqb_refl. unfold put at 1. rewrite String.eqb_refl. f_equal. exact (write_end [] during).
Qed.

(* ---------------- the hypotheses can be met ---------------- *)
(** two ranks with two workers each; rank 0 was restored, so its workers are shifted by one; worker 1 of rank 0 was forked after the main
    process had opened its file *)
Definition ex_c (r : Z) : wcfg := mkCfg r 2 2 0.
Definition ex_e (off : Z) (who : option Z) : wenv :=
  match who with None => mkEnv None 0 false [] None | Some i => mkEnv (Some (i, 2%Z)) off true [5%Z] None end.
Definition ex_procs : list proc :=
  [mkProc 10 (ex_c 0) None; mkProc 11 (ex_c 0) (Some (0%Z, ("main", 7))); mkProc 12 (ex_c 1) None; mkProc 13 (ex_c 1) None].
Definition ex_who (k : nat) : Z * option Z := nth k [(0%Z, None); (0%Z, Some 1%Z); (1%Z, None); (1%Z, Some 1%Z)] (2%Z, None).
Definition ex_off (r : Z) : Z := if (r =? 0)%Z then 1%Z else 0%Z.
Definition ex_evs : list logev :=
  [(0, ex_e 1 None, [1; 2]); (1, ex_e 1 (Some 1%Z), [3]); (0, ex_e 1 None, [4]); (3, ex_e 0 (Some 1%Z), [5; 6]); (1, ex_e 1 (Some 1%Z), [7])].

Example C77_nonvacuous :
  (forall i j p q, seed_text i p = seed_text j q -> i = j) /\
  (forall j k, j < length ex_procs -> k < length ex_procs -> ex_who j = ex_who k -> j = k) /\
  (forall k p, nth_error ex_procs k = Some p -> p_file p = None \/ exists i x, snd (ex_who k) = Some i /\ p_file p = Some ((fst (ex_who k) * (2 + 1))%Z, x)) /\
  (forall k p, nth_error ex_procs k = Some p -> exists e, runs_as (p_cfg p) (fst (ex_who k)) 2 (ex_off (fst (ex_who k))) (snd (ex_who k)) e) /\
  (forall k e d, In (k, e, d) ex_evs -> exists p, nth_error ex_procs k = Some p /\ runs_as (p_cfg p) (fst (ex_who k)) 2 (ex_off (fst (ex_who k))) (snd (ex_who k)) e) /\
  (match run_logs seed_text ex_evs ex_procs (fun _ => None) with
   | Ok (_, f) => map f ["0,10"; "1,11"; "3,12"; "5,13"] = [Some [1; 2; 4]; Some [3; 7]; None; Some [5; 6]]
   | Err _ => False
   end).
Proof.
  assert (R : forall r off who, match who with Some i => (0 <= i < 2)%Z /\ (0 <= off < 2)%Z | None => True end -> runs_as (ex_c r) r 2 off who (ex_e off who)).
  { intros r off [i|] H; unfold runs_as; cbn; auto 10. destruct H. auto 10. }
  split; [intros i j p q E; apply C07_seed_text_injective in E; apply E|]. split.
  { intros j k Hj Hk. cbn in Hj, Hk. do 4 (destruct j as [|j]; [do 4 (destruct k as [|k]; [cbn; congruence|]); lia|]). lia. }
  split.
  { intros k p. do 4 (destruct k as [|k]; [cbn; intros [= <-]; (left; reflexivity) || (right; eexists _, _; split; reflexivity)|]). destruct k; discriminate. }
  split.
  { intros k p. do 4 (destruct k as [|k]; [cbn; intros [= <-]; eexists; apply R; cbn; auto; lia|]). destruct k; discriminate. }
  split; [|vm_compute; reflexivity].
  intros k e d H. cbn in H. repeat (destruct H as [[= <- <- <-]|H]; [eexists; split; [reflexivity|]; apply R; cbn; auto; lia|]). contradiction.
Qed.

(** worker 0 of one, two samples per epoch, the first epoch over, restored, one more sample: three entries, the next is number 3 *)
Example C77_counted_nonvacuous : exists s, counted (D := wrap (log_ds 1) (list_ds [mkS 1 [AInt 1]; mkS 2 [AInt 2]])) 0 1 s 3.
Proof.
  set (W := wrap (log_ds 1) (list_ds [mkS 1 [AInt 1]; mkS 2 [AInt 2]])).
  assert (N : forall n (s s' : st W) e, nextn 0 n s = Some (e, s') -> next 0 s e s') by (intros n s s' e H; exists n; exact H).
  eexists. eapply cn_yield.
  - eapply cn_restore with (sts := [_]).
    + eapply cn_done.
      * eapply cn_yield; [eapply cn_yield; [apply cn_init|]|]; apply (N 5); vm_compute; reflexivity.
      * apply (N 5). vm_compute. reflexivity.
    + reflexivity.
    + reflexivity.
  - apply (N 5). vm_compute. reflexivity.
Qed.

Example C77_restore_nonvacuous : (0 < num_workers (ex_c 0))%Z /\ (0 < 1 mod num_workers (ex_c 0))%Z.
Proof. split; reflexivity. Qed.

Print Assumptions C77_log_numbers.
Print Assumptions C77_logs_complete.
Print Assumptions C77_entries_numbered.
Print Assumptions C77_keys_of_batch.
Print Assumptions C77_keys_sound.
Print Assumptions C77_unbatched_refuted.
Print Assumptions C77_restore_sample_refuted.
