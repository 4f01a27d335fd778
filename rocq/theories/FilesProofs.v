From Verif Require Import Base Files.

(** ** reference: an ordinary file with clamped seeks *)
(** what a user expects of a byte stream over [content]; a read may also fail with IOError, which
    leaves the position alone *)
(** seeking to [off] from the start, the current position [p] or the end leads to [q]: the exact
    target if it lies in the file, otherwise the nearer end of the file *)
Definition sought (size p : nat) (off : Z) (wh : whence) (q : nat) : Prop :=
  let base := match wh with SET => 0 | CUR => p | END => size end in
  let t := (Z.of_nat base + off)%Z in
  ((0 <= t <= Z.of_nat size)%Z -> Z.of_nat q = t) /\ ((t < 0)%Z -> q = 0) /\ ((Z.of_nat size < t)%Z -> q = size).

Lemma clamp_sought size p off wh : sought size p off wh (clamp (seek_target off wh p size) size).
Proof. unfold sought, clamp, seek_target. destruct wh; repeat split; intros; lia. Qed.

Inductive fine_run (content : bytes) : nat -> list fop -> list fres -> Prop :=
| fr_nil p : fine_run content p [] []
| fr_read p n ops rs : let b := match n with None => skipn p content | Some k => firstn k (skipn p content) end in
    fine_run content (p + length b) ops rs -> fine_run content p (ORead n :: ops) (FBytes b :: rs)
| fr_ioerr p n ops rs : fine_run content p ops rs -> fine_run content p (ORead n :: ops) (FIOError :: rs)
| fr_seek p off wh q ops rs : sought (length content) p off wh q ->
    fine_run content q ops rs -> fine_run content p (OSeek off wh :: ops) (FPos q :: rs)
| fr_tell p ops rs : fine_run content p ops rs -> fine_run content p (OTell :: ops) (FPos p :: rs).

Definition no_short (f : rfault) : Prop := match f with RShort _ => False | _ => True end.

Record calm (e : env) : Prop := {
  calm_open : Forall (eq true) (e_open e);
  calm_seek : Forall (eq true) (e_seek e);
  calm_read : Forall no_short (e_read e)
}.

Definition rs_inv (content : bytes) (s : rstream) : Prop :=
  rs_pos s <= length content /\ match rs_file s with Some p => p = rs_pos s | None => True end.

Lemma Forall_tl {A} (P : A -> Prop) l : Forall P l -> Forall P (tl l).
Proof. destruct l; [auto|]. intros H. inversion H; auto. Qed.

(** number of faults in an environment *)
Definition nfaults (e : env) : nat :=
  length (filter negb (e_reseek e)) + length (filter (fun f => match f with RFail => true | _ => false end) (e_read e)).

Lemma complete_full content n p : p <= length content ->
  read_complete content n (p + length (raw_bytes content p n)) (raw_bytes content p n) = true.
Proof.
  intros Hp. unfold read_complete, raw_bytes, fsize. destruct n as [k|].
  - rewrite firstn_length, skipn_length.
    destruct (Nat.min k (length content - p) =? k) eqn:E; [reflexivity|]. cbn. lia.
  - rewrite skipn_length. replace (p + (length content - p)) with (length content) by lia. rewrite Nat.leb_refl. reflexivity.
Qed.

Lemma raw_bound content n p : p <= length content -> p + length (raw_bytes content p n) <= length content.
Proof. intros. unfold raw_bytes. destruct n; [rewrite firstn_length|]; rewrite skipn_length; lia. Qed.

Lemma filter_negb_tl_le (l : list bool) : length (filter negb (tl l)) <= length (filter negb l).
Proof. destruct l as [|[] l]; cbn; lia. Qed.

Lemma read_loop_ok content n : forall left s e r s' e', 0 < left -> rs_inv content s -> calm e ->
  read_loop content left n [] s e = (r, s', e') ->
  calm e' /\ rs_inv content s' /\
  ((r = RBytes (raw_bytes content (rs_pos s) n) /\ rs_pos s' = rs_pos s + length (raw_bytes content (rs_pos s) n)
    /\ nfaults e' <= nfaults e)
   \/ (r = RIOError /\ rs_pos s' = rs_pos s /\ nfaults e' + left <= nfaults e)).
Proof.
  induction left as [|left IH]; intros s e r s' e' HL [Hp Hf] HC; [lia|].
  cbn [read_loop].
  set (ioe := fun (s : rstream) (e : env) => if left =? 0 then (RIOError, s, e) else read_loop content left n [] s e).
  assert (IOE : forall e0, calm e0 -> S (nfaults e0) <= nfaults e -> ioe (mkRS None (rs_pos s)) e0 = (r, s', e') ->
    calm e' /\ rs_inv content s' /\
    ((r = RBytes (raw_bytes content (rs_pos s) n) /\ rs_pos s' = rs_pos s + length (raw_bytes content (rs_pos s) n) /\ nfaults e' <= nfaults e)
     \/ (r = RIOError /\ rs_pos s' = rs_pos s /\ nfaults e' + S left <= nfaults e))).
  { intros e0 C0 N0. unfold ioe. destruct (left =? 0) eqn:E0.
    - intros [= <- <- <-]. split; [auto|]. split; [split; cbn; auto|]. right. cbn. repeat split; lia.
    - intros EQ. assert (0 < left) by lia. destruct (IH (mkRS None (rs_pos s)) _ _ _ _ H (conj Hp I) C0 EQ) as (A1 & A2 & [(B1 & B2 & B3)|(B1 & B2 & B3)]).
      + split; [auto|]. split; [auto|]. left. cbn in *. repeat split; auto; lia.
      + split; [auto|]. split; [auto|]. right. cbn in *. repeat split; auto; lia. }
  clear IH.
  set (rd := fun (p : nat) (e : env) =>
          match e_read e with
          | RFail :: r => ioe (mkRS None (rs_pos s)) (mkEnv (e_open e) (e_reseek e) (e_seek e) r)
          | f :: r =>
              let full := raw_bytes content p n in
              let res := match f with RShort k => firstn k full | _ => full end in
              let s' := mkRS (Some (p + length res)) (rs_pos s + length res) in
              let e' := mkEnv (e_open e) (e_reseek e) (e_seek e) r in
              if read_complete content n (rs_pos s') ([] ++ res) then (RBytes res, s', e')
              else read_loop content left n ([] ++ res) s' e'
          | [] =>
              let res := raw_bytes content p n in
              let s' := mkRS (Some (p + length res)) (rs_pos s + length res) in
              if read_complete content n (rs_pos s') ([] ++ res) then (RBytes res, s', e)
              else read_loop content left n ([] ++ res) s' e
          end).
  assert (RD : forall e0, calm e0 -> nfaults e0 <= nfaults e -> rd (rs_pos s) e0 = (r, s', e') ->
    calm e' /\ rs_inv content s' /\
    ((r = RBytes (raw_bytes content (rs_pos s) n) /\ rs_pos s' = rs_pos s + length (raw_bytes content (rs_pos s) n) /\ nfaults e' <= nfaults e)
     \/ (r = RIOError /\ rs_pos s' = rs_pos s /\ nfaults e' + S left <= nfaults e))).
  { intros [eo er es erd] C0 N0. unfold rd. cbn [e_read e_open e_reseek e_seek].
    destruct C0 as [c1 c2 c3]. cbn [e_read e_open e_reseek e_seek] in c1, c2, c3.
    destruct erd as [|f erd].
    - cbn [app rs_pos]. rewrite complete_full by auto. intros [= <- <- <-].
      split; [constructor; auto|]. split; [split; cbn; [apply raw_bound; auto|reflexivity]|]. left. cbn. auto.
    - inversion c3 as [|? ? c4 c5]; subst. destruct f as [|k|]; [|destruct c4|].
      + cbn [app rs_pos]. rewrite complete_full by auto. intros [= <- <- <-].
        split; [constructor; auto|]. split; [split; cbn; [apply raw_bound; auto|reflexivity]|]. left. cbn. auto.
      + intros EQ. refine (IOE _ _ _ EQ); [constructor; auto|unfold nfaults in *; cbn in *; lia]. }
  destruct (rs_file s) as [p|] eqn:EF.
  - rewrite Hf. intros EQ. apply RD in EQ; auto.
  - destruct HC as [c1 c2 c3]. destruct e as [eo er es erd]. cbn [e_read e_open e_reseek e_seek] in *.
    assert (C1 : Forall (eq true) (tl eo)) by (apply Forall_tl; auto).
    assert (G : match er with false :: r0 => ioe (mkRS None (rs_pos s)) (mkEnv (tl eo) r0 es erd)
                | _ => rd (rs_pos s) (mkEnv (tl eo) (tl er) es erd) end = (r, s', e') ->
     calm e' /\ rs_inv content s' /\
    ((r = RBytes (raw_bytes content (rs_pos s) n) /\ rs_pos s' = rs_pos s + length (raw_bytes content (rs_pos s) n) /\ nfaults e' <= nfaults (mkEnv eo er es erd))
     \/ (r = RIOError /\ rs_pos s' = rs_pos s /\ nfaults e' + S left <= nfaults (mkEnv eo er es erd)))).
    { destruct er as [|[] er]; intros EQ.
      - refine (RD _ _ _ EQ); [constructor; auto|unfold nfaults; cbn; lia].
      - refine (RD _ _ _ EQ); [constructor; auto|unfold nfaults; cbn; lia].
      - refine (IOE _ _ _ EQ); [constructor; auto|unfold nfaults; cbn; lia]. }
    destruct eo as [|[] eo]; auto. inversion c1; discriminate.
Qed.

Lemma clamp_le z n : clamp z n <= n.
Proof. unfold clamp. lia. Qed.

Lemma rs_seek_ok content off s e : rs_inv content s -> calm e ->
  let '(s', e') := rs_seek content off s e in
  rs_pos s' = clamp off (length content) /\ rs_inv content s' /\ calm e' /\ nfaults e' = nfaults e.
Proof.
  intros [Hp Hf] [c1 c2 c3]. unfold rs_seek, fsize. destruct (rs_file s) as [q|].
  - destruct e as [eo er es erd]. cbn [e_read e_open e_reseek e_seek] in *. destruct es as [|[] es].
    + cbn. repeat split; cbn; auto using clamp_le.
    + cbn. inversion c2; subst. repeat split; cbn; auto using clamp_le.
    + inversion c2; discriminate.
  - cbn. repeat split; cbn; auto using clamp_le.
Qed.

Lemma rs_run_fine content ops : forall s e, rs_inv content s -> calm e ->
  fine_run content (rs_pos s) ops (rs_run content ops s e).
Proof.
  induction ops as [|op ops IH]; intros s e HI HC; cbn [rs_run]; [constructor|].
  destruct op as [n|off wh|].
  - unfold rs_read. destruct (read_loop content 10 n [] s e) as [[r s'] e'] eqn:ER.
    destruct (@read_loop_ok content n 10 s e r s' e' ltac:(lia) HI HC ER) as (C' & I' & [(-> & P & _)|(-> & P & _)]).
    + unfold raw_bytes in *. apply (fr_read (content := content) (p := rs_pos s) (n := n)).
      match goal with |- fine_run _ ?q _ _ => replace q with (rs_pos s') by (rewrite P; reflexivity) end. apply IH; auto.
    + apply fr_ioerr. rewrite <- P. apply IH; auto.
  - pose proof (rs_seek_ok (seek_target off wh (rs_pos s) (length content)) HI HC) as G.
    destruct (rs_seek content (seek_target off wh (rs_pos s) (length content)) s e) as [s' e'].
    destruct G as (P & I' & C' & _). rewrite P. apply (fr_seek (content := content) (p := rs_pos s)).
    + apply clamp_sought.
    + rewrite <- P. apply IH; auto.
  - constructor. apply IH; auto.
Qed.

Lemma rs_run_no_ioerror content ops : forall s e, rs_inv content s -> calm e -> nfaults e < 10 ->
  ~ In FIOError (rs_run content ops s e).
Proof.
  induction ops as [|op ops IH]; intros s e HI HC HN; cbn [rs_run]; [auto|].
  destruct op as [n|off wh|].
  - unfold rs_read. destruct (read_loop content 10 n [] s e) as [[r s'] e'] eqn:ER.
    destruct (@read_loop_ok content n 10 s e r s' e' ltac:(lia) HI HC ER) as (C' & I' & [(-> & P & N)|(-> & P & N)]).
    + intros [E|E]; [discriminate|]. revert E. apply IH; auto. lia.
    + lia.
  - pose proof (rs_seek_ok (seek_target off wh (rs_pos s) (length content)) HI HC) as G.
    destruct (rs_seek content (seek_target off wh (rs_pos s) (length content)) s e) as [s' e'].
    destruct G as (P & I' & C' & N). intros [E|E]; [discriminate|]. revert E. apply IH; auto. lia.
  - intros [E|E]; [discriminate|]. revert E. apply IH; auto.
Qed.

(** ** sub file *)
Section Sub.
  Variable St : stream_ops.
  Variables (content : bytes) (offset size : nat).
  Hypothesis HW : offset + size <= length content.
  (* the underlying stream: a relation "its position is p and it is in a good state" *)
  Variable at_pos : nat -> s_t St -> Prop.
  Hypothesis Hread : forall n p s, p <= length content -> at_pos p s ->
    match s_read (s := St) n s with
    | (Some b, s') => b = firstn n (skipn p content) /\ at_pos (p + length b) s'
    | (None, s') => at_pos p s'
    end.
  Hypothesis Hseek : forall p q s, at_pos p s -> q <= length content -> at_pos q (s_seek (s := St) q s).

  Definition window := firstn size (skipn offset content).

  Lemma window_length : length window = size.
  Proof. unfold window. rewrite firstn_length, skipn_length. lia. Qed.

  Lemma window_read p k : p <= size ->
    firstn (Nat.min k (size - p)) (skipn (offset + p) content) = firstn k (skipn p window).
  Proof.
    intros Hp. unfold window. rewrite skipn_firstn_comm, firstn_firstn, skipn_add.
    reflexivity.
  Qed.

  Lemma sf_run_fine ops : forall f, sf_pos f <= size -> at_pos (offset + sf_pos f) (sf_stream f) ->
    fine_run window (sf_pos f) ops (@sf_run St offset size ops f).
  Proof.
    induction ops as [|op ops IH]; intros [p s] Hp HA; cbn [sf_pos sf_stream] in *; cbn [sf_run]; [constructor|].
    destruct op as [n|off wh|].
    - unfold sf_read. cbn [sf_pos sf_stream].
      set (n' := match n with None => size - p | Some k => Nat.min k (size - p) end).
      assert (W : match n with None => skipn p window | Some k => firstn k (skipn p window) end =
                  firstn n' (skipn (offset + p) content)).
      { unfold n'. destruct n as [k|]; [symmetry; apply window_read; auto|].
        rewrite <- (firstn_all (skipn p window)), skipn_length, window_length.
        rewrite <- window_read by auto. f_equal. lia. }
      destruct (n' =? 0) eqn:E0.
      + assert (n' = 0) as Z by lia. rewrite Z in W. cbn [firstn] in W.
        pose proof (fr_read (content := window) (p := p) (n := n) (ops := ops)) as F. cbn zeta in F. rewrite W in F.
        apply F. cbn [length]. rewrite Nat.add_0_r. apply (IH (mkSF p s)); auto.
      + assert (offset + p <= length content) as B by lia. pose proof (Hread n' B HA) as R. destruct (s_read n' s) as [[b|] s'].
        * destruct R as [-> R].
          pose proof (fr_read (content := window) (p := p) (n := n) (ops := ops)) as F. cbn zeta in F. rewrite W in F.
          apply F. set (b := firstn n' (skipn (offset + p) content)) in *.
          assert (length b <= size - p). { unfold b. rewrite firstn_length. unfold n'. destruct n; lia. }
          apply (IH (mkSF (p + length b) s')); cbn; [lia|]. rewrite Nat.add_assoc. exact R.
        * apply fr_ioerr. apply (IH (mkSF p s')); auto.
    - unfold sf_seek. cbn [sf_pos sf_stream]. pose proof (clamp_le (seek_target off wh p size) size).
      apply (fr_seek (content := window) (p := p)); [rewrite window_length; apply clamp_sought|].
      apply (IH (mkSF (clamp (seek_target off wh p size) size) (s_seek (s := St) (offset + clamp (seek_target off wh p size) size) s))); cbn; auto.
      apply (@Hseek (offset + p)); auto. lia.
    - constructor. apply (IH (mkSF p s)); auto.
  Qed.
End Sub.

(** ** the index codec *)
Lemma le_bytes_length n : forall x, length (le_bytes n x) = n.
Proof. induction n; intros; cbn; auto. Qed.

Lemma unpack_le n : forall x, (0 <= x < 256 ^ Z.of_nat n)%Z -> unpack (le_bytes n x) = x.
Proof.
  induction n as [|n IH]; intros x Hx.
  - cbn in *. lia.
  - cbn [le_bytes unpack]. rewrite Nat2Z.inj_succ, Z.pow_succ_r in Hx by lia.
    rewrite IH.
    + rewrite Z2Nat.id by (apply Z.mod_pos_bound; lia). pose proof (Z.div_mod x 256 ltac:(lia)). lia.
    + split; [apply Z.div_pos; lia|apply Z.div_lt_upper_bound; lia].
Qed.

Lemma pack_length x : length (pack x) = 8.
Proof. apply le_bytes_length. Qed.

Lemma pack_bytes x b : In b (pack x) -> b < 256.
Proof.
  assert (G : forall n y, In b (le_bytes n y) -> b < 256).
  { induction n; intros y; cbn; [tauto|]. intros [<-|H]; [|eauto]. pose proof (Z.mod_pos_bound y 256 ltac:(lia)). lia. }
  apply G.
Qed.

Lemma flat_pack_length offs : length (flat_map pack offs) = 8 * length offs.
Proof. induction offs; cbn [flat_map length]; [auto|]. rewrite app_length, pack_length. lia. Qed.

Lemma flat_pack_nth offs : forall i x, nth_error offs i = Some x ->
  firstn 8 (skipn (8 * i) (flat_map pack offs)) = pack x.
Proof.
  induction offs as [|y offs IH]; intros [|i] x H; try discriminate.
  - cbn in H. injection H as ->. cbn [flat_map]. rewrite Nat.mul_0_r. cbn [skipn].
    rewrite firstn_app, pack_length. cbn [Nat.sub]. rewrite firstn_O, app_nil_r. apply firstn_all2. rewrite pack_length. lia.
  - cbn [flat_map]. rewrite skipn_app, pack_length.
    rewrite (skipn_all2 (pack y)) by (rewrite pack_length; lia). cbn [app].
    replace (8 * S i - 8) with (8 * i) by lia. apply IH. exact H.
Qed.

Lemma index_len_pack offs : index_len (flat_map pack offs) = length offs.
Proof. unfold index_len. rewrite flat_pack_length, Nat.mul_comm. apply Nat.div_mul. lia. Qed.

Lemma index_get_pack offs i : (forall x, In x offs -> (0 <= x < 2 ^ 64)%Z) ->
  index_get (flat_map pack offs) i =
    match (if (0 <=? i)%Z then nth_error offs (Z.to_nat i) else None) with
    | Some x => Ok x
    | None => Err IndexError
    end.
Proof.
  intros HB. unfold index_get. rewrite index_len_pack.
  destruct (0 <=? i)%Z eqn:E0.
  - destruct (nth_error offs (Z.to_nat i)) as [x|] eqn:EN.
    + assert (Z.to_nat i < length offs) by (apply nth_error_Some; congruence).
      destruct ((Z.of_nat (length offs) <=? i) || (i <? 0))%Z eqn:E; [lia|].
      rewrite (flat_pack_nth EN). unfold pack. rewrite unpack_le; [reflexivity|].
      apply nth_error_In in EN. apply HB in EN. exact EN.
    + apply nth_error_None in EN. destruct ((Z.of_nat (length offs) <=? i) || (i <? 0))%Z eqn:E; [reflexivity|lia].
  - destruct ((Z.of_nat (length offs) <=? i) || (i <? 0))%Z eqn:E; [reflexivity|lia].
Qed.

(** ** the writer *)
Definition fs_runs (ops : list fsop) (f : fs) : fs := fold_left (fun f op => fs_do op f) ops f.

Lemma writes_run b ops : writes_of b ops -> forall f c, fs_tmp f = Some c ->
  fs_runs ops f = mkFs (fs_final f) (Some (c ++ b)).
Proof.
  induction 1 as [|b1 b2 ops H IH]; intros [fin tmp] c E; cbn in E; subst tmp; cbn.
  - rewrite app_nil_r. reflexivity.
  - unfold fs_runs in IH. rewrite (IH (mkFs fin (Some (c ++ b1))) (c ++ b1)) by reflexivity. cbn. rewrite app_assoc. reflexivity.
Qed.

Lemma writes_only b ops : writes_of b ops -> Forall (fun op => exists c, op = WriteTmp c) ops.
Proof. induction 1; constructor; eauto. Qed.

Lemma no_rename_final ops : Forall (fun op => op <> RenameTmp) ops -> forall f, fs_final (fs_runs ops f) = fs_final f.
Proof.
  induction 1 as [|op ops Hop H IH]; intros f; cbn; [reflexivity|]. unfold fs_runs in IH. rewrite IH.
  destruct op; cbn; try reflexivity. congruence.
Qed.

Lemma writes_no_rename b ops : writes_of b ops -> Forall (fun op => op <> RenameTmp) ops.
Proof. intros H. apply writes_only in H. eapply Forall_impl; [|exact H]. intros op [c ->]. discriminate. Qed.

Lemma Forall_firstn {A} (P : A -> Prop) l : forall n, Forall P l -> Forall P (firstn n l).
Proof. induction l as [|x l IH]; intros [|n] H; cbn; auto. inversion H; subst. constructor; auto. Qed.

Lemma writer_crash offs fail ops n f : writer_run offs fail ops ->
  let f' := fs_runs (firstn n ops) f in
  fs_final f' = fs_final f \/ (fail = None /\ length ops <= n /\ fs_final f' = Some (flat_map pack offs)).
Proof.
  intros H. cbn zeta. destruct H as [ops H|k ops H].
  - destruct (le_lt_dec (length (CreateTmp :: ops ++ [RenameTmp])) n) as [L|L].
    + right. split; [reflexivity|]. split; [exact L|]. rewrite firstn_all2 by lia.
      change (CreateTmp :: ops ++ [RenameTmp]) with ((CreateTmp :: ops) ++ [RenameTmp]).
      unfold fs_runs. rewrite fold_left_app. change (fold_left _ (CreateTmp :: ops) f) with (fs_runs ops (fs_do CreateTmp f)).
      rewrite (writes_run H (f := fs_do CreateTmp f) (c := [])) by reflexivity. reflexivity.
    + left. apply no_rename_final. destruct n as [|n]; [constructor|]. cbn [firstn]. constructor; [discriminate|].
      rewrite firstn_app. cbn [length] in L. rewrite app_length in L. cbn in L.
      replace (n - length ops) with 0 by lia. rewrite firstn_O, app_nil_r. apply Forall_firstn. eapply writes_no_rename; eauto.
  - left. apply no_rename_final. apply Forall_firstn. constructor; [discriminate|]. apply Forall_app. split.
    + eapply writes_no_rename; eauto.
    + constructor; [discriminate|constructor].
Qed.
