(** Proofs about the whole loader (LoaderSys.v). *)
From Verif Require Import Base Dataset DatasetProofs WrapProofs WrapRun WrapSpec Loader LoaderSpec LoaderProofs LoaderSys LoaderSysProofs.
Local Open Scope nat_scope.

(** the samples of a list that fall to process [p] when processes take turns, [cur] first *)
Fixpoint sub {X} (n cur p : nat) (l : list X) : list X :=
  match l with
  | [] => []
  | x :: l' => if cur =? p then x :: sub n ((cur + 1) mod n) p l' else sub n ((cur + 1) mod n) p l'
  end.

Lemma sub_shift {X} n d cur p (l : list X) : cur < n -> p < n ->
  sub n ((cur + d) mod n) ((p + d) mod n) l = sub n cur p l.
Proof.
  intros Hc Hp. revert cur Hc. induction l as [|x l IH]; intros cur Hc; [reflexivity|]. cbn [sub].
  assert (E : ((cur + d) mod n =? (p + d) mod n) = (cur =? p)).
  { destruct (Nat.eqb_spec cur p) as [->|NE]; [apply Nat.eqb_refl|]. apply Nat.eqb_neq. intros E. apply NE.
    rewrite <- (Nat.add_mod_idemp_r cur d), <- (Nat.add_mod_idemp_r p d) in E by lia.
    pose proof (Nat.mod_upper_bound d n ltac:(lia)) as B. set (e := d mod n) in *. clearbody e.
    assert (Q : forall x, x < n -> (x + e) mod n = if x + e <? n then x + e else x + e - n).
    { intros y Hy. destruct (Nat.ltb_spec (y + e) n); [apply Nat.mod_small; lia|].
      replace (y + e) with ((y + e - n) + 1 * n) by lia. rewrite Nat.mod_add by lia. rewrite Nat.mod_small by lia. lia. }
    rewrite !Q in E by lia. destruct (Nat.ltb_spec (cur + e) n), (Nat.ltb_spec (p + e) n); lia. }
  assert (E2 : ((cur + d) mod n + 1) mod n = ((cur + 1) mod n + d) mod n).
  { rewrite !Nat.add_mod_idemp_l by lia. f_equal. lia. }
  rewrite E, E2. rewrite IH by (apply Nat.mod_upper_bound; lia). reflexivity.
Qed.

Lemma sequence_nth {V} (l : list (result V)) : forall r, sequence l = Ok r ->
  length r = length l /\ forall i v, nth_error r i = Some v -> nth_error l i = Some (Ok v).
Proof.
  induction l as [|x l IH]; intros r H; cbn in H.
  - injection H as <-. split; [reflexivity|]. intros [|i]; discriminate.
  - destruct x as [v|e]; cbn in H; [|discriminate]. destruct (sequence l) as [r'|e] eqn:E; cbn in H; [|discriminate].
    injection H as <-. destruct (IH _ eq_refl) as [L N]. split; [cbn; lia|]. intros [|i] v' Hv; cbn in *; [congruence|auto].
Qed.

Lemma sequence_ok {V} (l : list (result V)) : (forall x, In x l -> exists v, x = Ok v) -> exists r, sequence l = Ok r.
Proof.
  induction l as [|x l IH]; intros H; [exists []; reflexivity|]. destruct (H x (or_introl eq_refl)) as [v ->].
  destruct IH as [r E]; [intros y I; apply H; right; exact I|]. exists (v :: r). cbn. rewrite E. reflexivity.
Qed.

Section Sys.
  Context {P : Type} (D : dataset P) (rank n prefetch min_n n_cp : nat).
  Hypothesis Hn : 0 < n.
  Hypothesis Hpos : 0 < prefetch.
  Hypothesis Hpre : prefetch <= min_n.
  Hypothesis Hcp : 2 <= n_cp.
  Hypothesis HE : endless D false n.
  Hypothesis HR : resumable D false n.

  Notation sys := (@sys P D).
  Notation sstep := (@sstep P D rank n prefetch min_n n_cp).
  Notation sruns := (@sruns P D rank n prefetch min_n n_cp).
  Notation sreach := (@sreach P D rank n prefetch min_n n_cp).
  Notation lwn := (lw n).
  Notation gd := (gid rank n).
  Notation deliv w := (@delivers P D w (gd w) min_n n_cp).

  Lemma lw_lt off p : lwn off p < n.
  Proof. apply Nat.mod_upper_bound. lia. Qed.
  Lemma proc_lt off l : proc n off l < n.
  Proof. apply Nat.mod_upper_bound. lia. Qed.
  Lemma lw_proc off l : off < n -> l < n -> lwn off (proc n off l) = l.
  Proof.
    intros Ho Hl. unfold lw, proc. replace ((l + off) mod n + n - off) with ((l + off) mod n + (n - off)) by lia.
    rewrite Nat.add_mod_idemp_l by lia. replace (l + off + (n - off)) with (l + 1 * n) by lia. rewrite Nat.mod_add by lia. apply Nat.mod_small, Hl.
  Qed.
  Lemma proc_lw off p : off < n -> p < n -> proc n off (lwn off p) = p.
  Proof.
    intros Ho Hp. unfold lw, proc. rewrite Nat.add_mod_idemp_l by lia. replace (p + n - off + off) with (p + 1 * n) by lia.
    rewrite Nat.mod_add by lia. apply Nat.mod_small, Hp.
  Qed.
  Lemma lw_next off p : off < n -> lwn off ((p + 1) mod n) = (lwn off p + 1) mod n.
  Proof.
    intros Ho. unfold lw. replace ((p + 1) mod n + n - off) with ((p + 1) mod n + (n - off)) by lia.
    rewrite !Nat.add_mod_idemp_l by lia. f_equal. lia.
  Qed.

  (** ** invariant *)
  Definition pinv (y : sys) (p : nat) (b : nat) : Prop :=
    let w := lwn (y_off y) p in
    wreach w (gd w) n min_n n_cp b (y_wk y p) /\
    k_index (y_wk y p) + k_skip (y_wk y p) = b + y_rcv y p + length (y_q y p) /\
    (0 < y_rcv y p + length (y_q y p) -> k_skip (y_wk y p) = 0) /\
    length (y_q y p) <= prefetch /\
    (exists pre, length pre = b + y_rcv y p /\ deliv w (w_fresh D) (pre ++ y_q y p)) /\
    (0 < y_rcv y p -> y_ctr y w = b + y_rcv y p - 1) /\
    K min_n b (y_wk y p).

  Definition sinv (y : sys) : Prop :=
    y_off y < n /\ y_next y < n /\ (forall p, p < n -> exists b, pinv y p b) /\
    (forall p, p < n -> 0 < y_rcv y p -> y_nid y = lwn (y_off y) (y_next y)).

  Lemma fupd_same {V} (f : nat -> V) p v : fupd f p v p = v.
  Proof. unfold fupd. rewrite Nat.eqb_refl. reflexivity. Qed.
  Lemma fupd_other {V} (f : nat -> V) p v x : x <> p -> fupd f p v x = f x.
  Proof. unfold fupd. intros H. apply Nat.eqb_neq in H. rewrite H. reflexivity. Qed.

  Lemma lw_inj off p q : off < n -> p < n -> q < n -> lwn off p = lwn off q -> p = q.
  Proof. intros Ho Hp Hq E. rewrite <- (proc_lw Ho Hp), <- (proc_lw Ho Hq), E. reflexivity. Qed.

  Lemma nth_number w pre i a rest : deliv w (w_fresh D) (pre ++ (i, a) :: rest) -> i = length pre.
  Proof.
    intros H. apply delivers_fresh in H. destruct H as (evs & _ & _ & E).
    assert (G : forall xs j pre, pre ++ (i, a) :: rest = number (gd w) j xs -> i = j + length pre).
    { clear. induction xs as [|x xs IH]; intros j pre E; [destruct pre; discriminate|]. destruct pre as [|[i' a'] pre]; cbn in E.
      - injection E as -> _ _. cbn. lia.
      - injection E as _ _ E. apply IH in E. cbn. lia. }
    apply G in E. lia.
  Qed.

  Lemma emit_index w (s : wstate D) i a s' : wnext w (gd w) min_n n_cp s (Emit i a) s' ->
    i = k_index s + k_skip s /\ k_index s' = S (k_index s + k_skip s) /\ k_skip s' = 0.
  Proof.
    remember (Emit i a) as e eqn:Ee. induction 1 as [s a' i' e s' N Ks H IH|s a' i' clk N Ks|s i' e s' N H1 H2 H IH|s i' clk N H1|s x i' N]; try discriminate.
    - destruct (IH Ee) as (A & B & C). cbn [k_index k_skip] in *. split; [lia|]. split; [lia|exact C].
    - injection Ee as <- _. cbn [k_index k_skip]. rewrite Ks. split; [lia|]. split; [lia|reflexivity].
    - destruct (IH Ee) as (A & B & C). cbn [k_index k_skip] in *. auto.
  Qed.

  Lemma sinv_fresh : sinv (s_fresh D).
  Proof.
    split; [exact Hn|]. split; [exact Hn|]. split; [|cbn; intros; lia]. intros p Hp. exists 0. unfold pinv. cbn [s_fresh y_off y_wk y_q y_rcv y_ctr].
    split; [constructor|]. split; [reflexivity|]. split; [cbn; lia|]. split; [cbn; lia|].
    split; [exists []; split; [reflexivity|apply delivers_nil]|]. split; [lia|]. split; [discriminate|]. split; [|intros c [<-|[]]; cbn; lia].
    left. exists (mkCp None 0). split; [left; reflexivity|cbn; lia].
  Qed.

  Lemma pinv_winv y p b : pinv y p b -> winv (lwn (y_off y) p) n (y_wk y p).
  Proof. intros (R & _). apply (wreach_inv (lw_lt _ _) HR R). Qed.

  (** what process [p] can still hand out, in terms of a fresh worker *)
  Lemma deliv_at y p b : pinv y p b -> forall l,
    deliv (lwn (y_off y) p) (y_wk y p) l <->
    exists pre, length pre = b + y_rcv y p + length (y_q y p) /\ deliv (lwn (y_off y) p) (w_fresh D) (pre ++ l).
  Proof.
    intros H l. pose proof (pinv_winv H) as [AP _]. destruct H as (R & EI & _ & _ & (pre & L & Dl) & _).
    rewrite <- EI. apply (delivers_pos AP). exists (pre ++ y_q y p). rewrite app_length, L. split; [lia|exact Dl].
  Qed.

  Lemma sinv_step y o y' : sstep y o y' -> sinv y -> sinv y'.
  Proof.
    intros ST (HO & HX & HP & HNI). destruct ST as [y p i a s' Hp HQ N|y i a rest EQ].
    - split; [exact HO|]. split; [exact HX|]. split; [|exact HNI]. intros p' Hp'. destruct (HP p' Hp') as [b I]. exists b.
      destruct (Nat.eq_dec p' p) as [->|NE].
      + destruct (emit_index N) as (E1 & E2 & E3). pose proof (deliv_at I) as DA. pose proof (pinv_winv I) as WI.
        destruct I as (R & EI & ES & LQ & (pre & L & Dl) & HC & HK). unfold pinv. cbn [y_off y_wk y_q y_rcv y_ctr]. rewrite !fupd_same, app_length. cbn [length].
        split; [eapply wreach_next; [exact R|exact N|discriminate]|]. split; [rewrite E2, E3; lia|]. split; [auto|]. split; [lia|].
        split; [|split; [exact HC|eapply K_next; [exact Hcp|exact N|eauto|exact HK]]].
        exists pre. split; [exact L|]. assert (Dn : deliv (lwn (y_off y) p) (y_wk y p) [(i, a)]) by (apply (delivers_step N), delivers_nil).
        apply DA in Dn. destruct Dn as (pre' & L' & Dn). assert (EP : pre' = pre ++ y_q y p).
        { eapply delivers_same_length; [eapply delivers_prefix; exact Dn|exact Dl|rewrite app_length; lia]. }
        rewrite EP, <- app_assoc in Dn. exact Dn.
      + unfold pinv in *. cbn [y_off y_wk y_q y_rcv y_ctr]. rewrite !fupd_other by exact NE. exact I.
    - split; [exact HO|]. split; [cbn; apply Nat.mod_upper_bound; lia|]. split.
      + intros p Hp. destruct (HP p Hp) as [b I]. exists b. destruct (Nat.eq_dec p (y_next y)) as [->|NE].
        * destruct I as (R & EI & ES & LQ & (pre & L & Dl) & HC & HK). unfold pinv. cbn [y_off y_wk y_q y_rcv y_ctr]. rewrite !fupd_same.
          rewrite EQ in *. cbn [length] in *. split; [exact R|]. split; [lia|]. split; [lia|]. split; [lia|]. split.
          { exists (pre ++ [(i, a)]). rewrite app_length, L. cbn [length]. split; [lia|]. rewrite <- app_assoc. exact Dl. }
          split; [|exact HK]. intros _. rewrite (nth_number Dl), L. lia.
        * unfold pinv in *. cbn [y_off y_wk y_q y_rcv y_ctr]. rewrite !(fupd_other _ _ NE).
          rewrite fupd_other; [exact I|]. intros E. apply NE. exact (lw_inj HO Hp HX E).
      + intros p Hp _. cbn [y_nid y_off y_next]. symmetry. apply lw_next. exact HO.
  Qed.

  Lemma save_state_inv (y : sys) st : save_state n y = Ok st -> snd st = y_nid y /\ length (fst st) = n /\
    forall l, l < n -> exists c off, nth_error (fst st) l = Some (c, off) /\ get_checkpoint (y_wk y (proc n (y_off y) l)) (y_ctr y l) = Ok (c, off).
  Proof.
    unfold save_state. destruct (sequence _) as [cks|e] eqn:E; cbn [bind]; [|discriminate]. intros H; injection H as <-. cbn [fst snd].
    split; [reflexivity|]. apply sequence_nth in E. destruct E as [L N]. rewrite map_length, seq_length in L. split; [exact L|].
    intros l Hl. destruct (nth_error cks l) as [[c off]|] eqn:E; [|apply nth_error_None in E; lia]. exists c, off. split; [reflexivity|].
    apply N in E. rewrite (@map_nth_error _ _ _ l (seq 0 n) l) in E; [congruence|].
    rewrite (nth_error_nth' _ 0) by (rewrite seq_length; exact Hl). rewrite seq_nth by exact Hl. reflexivity.
  Qed.

  (** *** C38 *)
  Lemma checkpoint_available (y : sys) p : sinv y -> p < n -> 0 < y_rcv y p ->
    exists c off, get_checkpoint (y_wk y p) (y_ctr y (lwn (y_off y) p)) = Ok (c, off).
  Proof.
    intros (HO & HX & HP & _) Hp Hr. destruct (HP p Hp) as [b (R & EI & ES & LQ & _ & HC & HK)]. rewrite (HC Hr).
    eapply (@K_available P D min_n b (y_wk y p) _ (length (y_q y p)) HK); lia.
  Qed.

  Lemma save_succeeds y : sinv y -> all_started n y -> exists st, save_state n y = Ok st.
  Proof.
    intros SI HA. unfold save_state.
    destruct (@sequence_ok _ (map (fun l => get_checkpoint (y_wk y (proc n (y_off y) l)) (y_ctr y l)) (seq 0 n))) as [r E].
    - intros x I. apply in_map_iff in I. destruct I as (l & <- & I). apply in_seq in I. cbn in I.
      destruct (@checkpoint_available y (proc n (y_off y) l) SI (proc_lt _ _) (HA _ (proc_lt _ _))) as (c & off & E).
      rewrite lw_proc in E; [|apply SI|lia]. eauto.
    - rewrite E. cbn. eauto.
  Qed.

  (** what one process of a restored loader hands out *)
  Lemma restored_pinv (y : sys) st : sinv y -> all_started n y -> save_state n y = Ok st ->
    sinv (restore_state n st) /\
    forall p, p < n -> let p' := proc n (y_off y) (lwn (y_nid y) p) in
      forall b, pinv y p' b -> pinv (restore_state n st) p (b + y_rcv y p') /\ y_off (restore_state n st) = y_nid y.
  Proof.
    intros SI HA HS. destruct st as [cks k]. destruct (save_state_inv HS) as (E1 & L & E2). cbn [fst snd] in *. subst k.
    assert (HK : y_nid y < n) by (destruct SI as (_ & _ & _ & H); rewrite (H 0 Hn (HA 0 Hn)); apply lw_lt).
    assert (X : forall p, p < n -> let p' := proc n (y_off y) (lwn (y_nid y) p) in
      forall b, pinv y p' b -> pinv (restore_state n (cks, y_nid y)) p (b + y_rcv y p')).
    { intros p Hp p' b I. destruct (E2 (lwn (y_nid y) p) (lw_lt _ _)) as (c & off & EN & EG). fold p' in EG.
      assert (Hr : 0 < y_rcv y p') by (apply HA, proc_lt). pose proof (pinv_winv I) as WI. destruct I as (R & EI & ES & LQ & (pre & Lp & Dl) & HC & HKK).
      assert (EW : lwn (y_off y) p' = lwn (y_nid y) p) by (apply lw_proc; [apply SI|apply lw_lt]).
      rewrite EW in *. rewrite (HC Hr) in EG. specialize (ES ltac:(lia)).
      assert (RR : wreach (lwn (y_nid y) p) (gd (lwn (y_nid y) p)) n min_n n_cp (S (b + y_rcv y p' - 1)) (w_restored (lwn (y_nid y) p) cks)).
      { eapply wreach_restore; [exact R| |exact EG|exact L|exact EN]. lia. }
      assert (LK : b + y_rcv y p' - 1 < k_index (y_wk y p')) by lia. destruct (get_checkpoint_good WI LK EG) as (G & LI & EO).
      destruct (restored_pos (lw_lt _ _) HR G L EN) as (_ & EI' & EO').
      unfold pinv, restore_state. cbn [y_off y_wk y_q y_rcv y_ctr length].
      split; [replace (b + y_rcv y p') with (S (b + y_rcv y p' - 1)) by lia; exact RR|]. split; [rewrite EI', EO', EO; lia|]. split; [lia|]. split; [lia|].
      split; [exists pre; split; [lia|rewrite app_nil_r; eapply delivers_prefix; exact Dl]|]. split; [lia|].
      split; [discriminate|]. unfold w_restored at 1. cbn [k_cps]. split.
      - left. eexists. split; [left; reflexivity|]. cbn [cp_index]. change (k_index (w_restored (lwn (y_nid y) p) cks) <= S (b + y_rcv y p')). rewrite EI'. lia.
      - intros c' Ic. unfold w_restored in Ic. cbn [k_cps] in Ic. destruct Ic as [<-|[]]. reflexivity. }
    split.
    - split; [exact HK|]. split; [exact Hn|]. split; [|cbn; intros; lia]. intros p Hp.
      destruct SI as (_ & _ & HP & _). destruct (HP _ (proc_lt (y_off y) (lwn (y_nid y) p))) as [b I]. eexists. apply X; eauto.
    - intros p Hp b I. split; [apply X; auto|reflexivity].
  Qed.

  Lemma sreach_inv y : sreach y -> sinv y.
  Proof.
    induction 1 as [|y o y' R IH ST|y st R IH HA HS]; [apply sinv_fresh|eapply sinv_step; eauto|].
    apply (restored_pinv IH HA HS).
  Qed.

  (** ** what the loader can return *)
  Definition pd (y : sys) (p : nat) (ys : list (nat * sample P)) : Prop :=
    exists l r, deliv (lwn (y_off y) p) (y_wk y p) l /\ y_q y p ++ l = ys ++ r.

  Lemma pd_at y p b : pinv y p b -> forall ys, pd y p ys <->
    exists pre, length pre = b + y_rcv y p /\ deliv (lwn (y_off y) p) (w_fresh D) (pre ++ ys).
  Proof.
    intros I ys. pose proof (deliv_at I) as DA. destruct I as (R & EI & ES & LQ & (pre & L & Dl) & HC & HK). split.
    - intros (l & r & Dw & E). apply DA in Dw. destruct Dw as (pre' & L' & Dw). exists pre. split; [exact L|].
      assert (EP : pre' = pre ++ y_q y p) by (eapply delivers_same_length; [eapply delivers_prefix; exact Dw|exact Dl|rewrite app_length; lia]).
      rewrite EP, <- app_assoc, E, app_assoc in Dw. eapply delivers_prefix. exact Dw.
    - intros (pre' & L' & Dy). assert (pre' = pre) as ->.
      { eapply delivers_same_length; [eapply delivers_prefix; exact Dy|eapply delivers_prefix; exact Dl|lia]. }
      destruct (delivers_comparable Dl Dy) as [[l E]|[l E]].
      + rewrite <- app_assoc in E. apply app_inv_head in E. exists l, []. rewrite app_nil_r. split; [|congruence].
        apply DA. exists (pre ++ y_q y p). rewrite app_length, L. split; [lia|]. rewrite <- app_assoc, <- E. exact Dy.
      + rewrite <- app_assoc in E. apply app_inv_head in E. exists [], l. rewrite app_nil_r. split; [apply delivers_nil|exact E].
  Qed.

  Definition pds (y : sys) (p : nat) (zs : list (sample P)) : Prop := exists ys, pd y p ys /\ map snd ys = zs.

  Lemma pd_nil y p : pd y p [].
  Proof. exists [], (y_q y p). split; [apply delivers_nil|]. rewrite app_nil_r. reflexivity. Qed.

  Lemma returns_pds y outs : returns rank n prefetch min_n n_cp y outs -> y_next y < n -> forall p, p < n -> pds y p (sub n (y_next y) p outs).
  Proof.
    intros [y' H]. induction H as [y|y o1 y1 o2 y2 ST RS IH]; intros HX p Hp.
    - exists []. split; [apply pd_nil|reflexivity].
    - destruct ST as [y p0 i a s' Hp0 HQ N|y i a rest EQ].
      + specialize (IH HX p Hp). cbn [app y_next] in *. destruct IH as (ys & (l & r & Dl & E) & ES). exists ys. split; [|exact ES].
        unfold pd in *. cbn [y_off y_wk y_q] in *. destruct (Nat.eq_dec p p0) as [->|NE].
        * rewrite fupd_same in *. exists ((i, a) :: l), r. split; [apply (delivers_step N), Dl|]. rewrite fupd_same, <- app_assoc in E. exact E.
        * rewrite !fupd_other in * by exact NE. eauto.
      + assert (HX' : (y_next y + 1) mod n < n) by (apply Nat.mod_upper_bound; lia). specialize (IH HX' p Hp). cbn [app sub y_next] in *.
        destruct IH as (ys & (l & r & Dl & E) & ES). cbn [y_off y_wk y_q] in *. destruct (Nat.eqb_spec (y_next y) p) as [<-|NE].
        * exists ((i, a) :: ys). split; [|cbn; rewrite ES; reflexivity]. exists l, r. split; [exact Dl|]. rewrite EQ. rewrite fupd_same in E. cbn. rewrite E. reflexivity.
        * exists ys. split; [|exact ES]. exists l, r. split; [exact Dl|]. rewrite fupd_other in E by congruence. exact E.
  Qed.

  Lemma pds_returns outs : forall y, sinv y -> (forall p, p < n -> pds y p (sub n (y_next y) p outs)) -> returns rank n prefetch min_n n_cp y outs.
  Proof.
    induction outs as [|x outs IH]; intros y SI H; [exists y; constructor|].
    (* receiving when the queue is not empty *)
    assert (RCV : forall y, sinv y -> (forall p, p < n -> pds y p (sub n (y_next y) p (x :: outs))) -> y_q y (y_next y) <> [] ->
      returns rank n prefetch min_n n_cp y (x :: outs)).
    { clear y SI H. intros y SI H NE. destruct (y_q y (y_next y)) as [|[i a] rest] eqn:EQ; [congruence|].
      assert (HX : y_next y < n) by apply SI. assert (a = x) as ->.
      { destruct (H _ HX) as (ys & (l & r & _ & E) & ES). cbn [sub] in ES. rewrite Nat.eqb_refl in ES. rewrite EQ in E.
        destruct ys as [|[i' a'] ys]; [discriminate|]. cbn in E, ES. congruence. }
      pose proof (@ss_receive _ _ rank n prefetch min_n n_cp y i x rest EQ) as ST. pose proof (sinv_step ST SI) as SI'.
      match type of ST with _ _ _ ?y1 => set (y1' := y1) in * end.
      destruct (IH y1' SI') as [y2 RS].
      - intros p Hp. destruct (H p Hp) as (ys & (l & r & Dl & E) & ES). cbn [sub] in ES. unfold y1'. cbn [y_next].
        destruct (Nat.eqb_spec (y_next y) p) as [<-|NEp].
        + destruct ys as [|[i' a'] ys]; [discriminate|]. cbn in ES. injection ES as -> ES. exists ys. split; [|exact ES].
          exists l, r. cbn [y_off y_wk y_q]. split; [exact Dl|]. rewrite fupd_same. rewrite EQ in E. cbn in E. congruence.
        + exists ys. split; [|exact ES]. exists l, r. cbn [y_off y_wk y_q]. split; [exact Dl|]. rewrite fupd_other by congruence. exact E.
      - exists y2. change (x :: outs) with ([x] ++ outs). eapply sr_step; [exact ST|exact RS]. }
    destruct (y_q y (y_next y)) as [|q0 qs] eqn:EQ; [|apply RCV; auto; congruence].
    assert (HX : y_next y < n) by apply SI.
    destruct (H _ HX) as (ys & (l & r & Dl & E) & ES). cbn [sub] in ES. rewrite Nat.eqb_refl in ES. rewrite EQ in E. cbn [app] in E.
    destruct ys as [|[i a] ys]; [discriminate|]. cbn in E. subst l. cbn in ES. injection ES as -> ES.
    assert (SI0 := SI). destruct SI as (HO & _ & HP & _). destruct (HP _ HX) as [b I].
    destruct (delivers_first HE (lw_lt _ _) (pinv_winv I) Dl) as [s' N].
    assert (ST : sstep y [] (mkSys (y_off y) (fupd (y_wk y) (y_next y) s') (fupd (y_q y) (y_next y) (y_q y (y_next y) ++ [(i, x)])) (y_rcv y) (y_next y) (y_ctr y) (y_nid y))).
    { apply ss_produce; [exact HX|rewrite EQ; exact Hpos|exact N]. }
    pose proof (sinv_step ST SI0) as SI'. match type of ST with _ _ _ ?y1 => set (y1' := y1) in * end.
    destruct (RCV y1' SI') as [y2 RS].
    - intros p Hp. destruct (H p Hp) as (zs & (l2 & r2 & Dl2 & E2) & ES2). exists zs. split; [|exact ES2].
      unfold pd, y1'. cbn [y_off y_wk y_q]. destruct (Nat.eq_dec p (y_next y)) as [->|NE].
      + rewrite !fupd_same, EQ. rewrite EQ in E2. cbn [app] in *. destruct l2 as [|[i2 a2] l2].
        * exists [], (r2 ++ [(i, x)]). split; [apply delivers_nil|]. rewrite app_assoc, <- E2. reflexivity.
        * assert (EH : [(i2, a2)] = [(i, x)]).
          { eapply delivers_same_length; [|eapply (@delivers_prefix _ _ _ _ _ _ _ [(i, x)]); exact Dl|reflexivity].
            eapply (@delivers_prefix _ _ _ _ _ _ _ [(i2, a2)]). exact Dl2. }
          injection EH as -> ->. exists l2, r2. split; [apply (delivers_step N), Dl2|exact E2].
      + rewrite !fupd_other by exact NE. exists l2, r2. auto.
    - unfold y1'. cbn [y_q y_next]. rewrite fupd_same, EQ. discriminate.
    - exists y2. change (x :: outs) with ([] ++ x :: outs). eapply sr_step; [exact ST|exact RS].
  Qed.

  Lemma returns_iff y outs : sinv y -> (returns rank n prefetch min_n n_cp y outs <-> forall p, p < n -> pds y p (sub n (y_next y) p outs)).
  Proof. intros SI. split; [intros H; apply returns_pds; [exact H|apply SI]|apply pds_returns, SI]. Qed.

  Lemma sinv_starting_at y l : l < n -> sinv y -> sinv (starting_at n y l).
  Proof.
    intros Hl (HO & HX & HP & HN). split; [exact HO|]. split; [apply proc_lt|]. split; [exact HP|].
    intros p Hp Hr. cbn. symmetry. apply lw_proc; assumption.
  Qed.

  Lemma restore_returns y st outs : sinv y -> all_started n y -> save_state n y = Ok st ->
    (returns rank n prefetch min_n n_cp (restore_state n st) outs <->
     returns rank n prefetch min_n n_cp (starting_at n y ((n - y_nid y) mod n)) outs).
  Proof.
    intros SI HA HS. destruct (restored_pinv SI HA HS) as [SR RP].
    assert (HK : y_nid y < n) by (destruct SI as (_ & _ & _ & H); rewrite (H 0 Hn (HA 0 Hn)); apply lw_lt).
    rewrite (returns_iff _ SR), (returns_iff _ (sinv_starting_at (Nat.mod_upper_bound (n - y_nid y) n ltac:(lia)) SI)).
    assert (EZ : y_next (restore_state n st) = 0) by (destruct st; reflexivity). rewrite EZ. cbn [starting_at y_next].
    assert (ES : forall p, p < n ->
       sub n (proc n (y_off y) ((n - y_nid y) mod n)) (proc n (y_off y) (lwn (y_nid y) p)) outs = sub n 0 p outs).
    { intros p Hp. rewrite <- (sub_shift (n - y_nid y + y_off y) outs Hn Hp). f_equal; unfold proc, lw; rewrite Nat.add_mod_idemp_l by lia; f_equal; lia. }
    assert (EQV : forall p, p < n -> forall zs, pds (restore_state n st) p zs <-> pds (starting_at n y ((n - y_nid y) mod n)) (proc n (y_off y) (lwn (y_nid y) p)) zs).
    { intros p Hp zs. set (p' := proc n (y_off y) (lwn (y_nid y) p)).
      destruct (proj1 (proj2 (proj2 SI)) p' (proc_lt _ _)) as [b I]. destruct (RP p Hp b I) as [IR EO]. fold p' in IR.
      assert (I' : pinv (starting_at n y ((n - y_nid y) mod n)) p' b) by exact I.
      assert (EW : lwn (y_off y) p' = lwn (y_nid y) p) by (apply lw_proc; [apply SI|apply lw_lt]).
      assert (RZ : y_rcv (restore_state n st) p = 0) by (destruct st; reflexivity).
      split; intros (ys & H & E); exists ys; (split; [|exact E]).
      - apply (pd_at IR) in H. apply (pd_at I'). rewrite EO in H. rewrite RZ, Nat.add_0_r in H. cbn [starting_at y_off y_rcv]. rewrite EW. exact H.
      - apply (pd_at IR). apply (pd_at I') in H. rewrite EO. rewrite RZ, Nat.add_0_r. cbn [starting_at y_off y_rcv] in H. rewrite EW in H. exact H. }
    split; intros H.
    - intros p' Hp'. set (p := proc n (y_nid y) (lwn (y_off y) p')). assert (Hp : p < n) by apply proc_lt.
      assert (EP : proc n (y_off y) (lwn (y_nid y) p) = p').
      { unfold p. rewrite lw_proc by (auto using lw_lt). apply proc_lw; [apply SI|exact Hp']. }
      rewrite <- EP. rewrite ES by exact Hp. apply EQV; auto.
    - intros p Hp. apply EQV; [exact Hp|]. rewrite <- ES by exact Hp. apply H, proc_lt.
  Qed.

  Lemma starting_at_next y outs : sinv y -> all_started n y ->
    (returns rank n prefetch min_n n_cp (starting_at n y (y_nid y)) outs <-> returns rank n prefetch min_n n_cp y outs).
  Proof.
    intros SI HA. assert (EN : y_nid y = lwn (y_off y) (y_next y)) by (destruct SI as (_ & _ & _ & H); apply (H 0 Hn (HA 0 Hn))).
    assert (EP : proc n (y_off y) (y_nid y) = y_next y) by (rewrite EN; apply proc_lw; apply SI).
    rewrite (returns_iff _ SI). rewrite returns_iff; [|apply sinv_starting_at; [rewrite EN; apply lw_lt|exact SI]].
    cbn [starting_at y_next]. rewrite EP. reflexivity.
  Qed.
End Sys.
