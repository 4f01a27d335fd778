(** Proofs about EpochLoader.v: the order of the samples *)
From Verif Require Import Base EpochLoader EpochLoaderSpec EpochLoaderProofs.
Local Open Scope nat_scope.

Section Order.
  Context {X : Type} (n : nat) (Hn : 0 < n).
  Notation task := (@task X).
  Notation el := (@el X).

  (** the samples that visits to the workers give, [u p] being what worker [p] still has *)
  Fixpoint pops (ws : list nat) (u : nat -> list X) : list (nat * X) :=
    match ws with
    | [] => []
    | p :: ws' => match u p with [] => pops ws' u | x :: r => (p, x) :: pops ws' (fset u p r) end
    end.
  Definition count (ws : list nat) (p : nat) : nat := count_occ Nat.eq_dec ws p.
  Definition rest_after (ws : list nat) (u : nat -> list X) : nat -> list X := fun p => skipn (count ws p) (u p).

  Lemma pops_ext ws : forall u u', (forall p, u p = u' p) -> pops ws u = pops ws u'.
  Proof.
    induction ws as [|p ws IH]; intros u u' H; [reflexivity|]. cbn [pops]. rewrite <- (H p). destruct (u p) as [|x r]; [apply IH; exact H|]. f_equal. apply IH.
    intros q. unfold fset. destruct (q =? p); [reflexivity|apply H].
  Qed.
  Lemma pops_app a : forall b u, pops (a ++ b) u = pops a u ++ pops b (rest_after a u).
  Proof.
    induction a as [|p a IH]; intros b u; [reflexivity|]. cbn [app pops].
    assert (E : forall r, (match u p with [] => r = [] | _ :: r' => r = r' end) -> pops b (rest_after a (fset u p r)) = pops b (rest_after (p :: a) u)).
    { intros r Hr. apply pops_ext. intros q. unfold rest_after, count. cbn [count_occ]. destruct (Nat.eq_dec p q) as [<-|NE].
      - rewrite fset_eq. destruct (u p) as [|x r']; subst r; [rewrite !skipn_nil; reflexivity|reflexivity].
      - rewrite fset_neq by auto. reflexivity. }
    destruct (u p) as [|x r] eqn:Eu.
    - rewrite IH. f_equal. rewrite <- (E [] eq_refl). apply pops_ext. intros q. unfold rest_after, fset. destruct (Nat.eqb_spec q p); [subst; rewrite Eu; reflexivity|reflexivity].
    - cbn [app]. f_equal. rewrite IH. f_equal. apply E. reflexivity.
  Qed.
  Lemma pops_none ws u : (forall p, In p ws -> u p = []) -> pops ws u = [].
  Proof. induction ws as [|p ws IH]; intros H; [reflexivity|]. cbn [pops]. rewrite H by (left; reflexivity). apply IH. intros; apply H; right; assumption. Qed.

  Fixpoint cyc_seq (c k : nat) : list nat := match k with 0 => [] | S k' => c :: cyc_seq ((c + 1) mod n) k' end.

  Lemma find_visits act k : forall c p K, c < n -> find_active n act k c = Some p ->
    exists sk K', cyc_seq c K' = sk ++ p :: cyc_seq ((p + 1) mod n) K /\ forall q, In q sk -> q < n /\ act q = false.
  Proof.
    induction k as [|k IH]; intros c p K Hc H; cbn in H; [discriminate|]. destruct (act c) eqn:E.
    - injection H as <-. exists [], (S K). split; [reflexivity|intros ? []].
    - destruct (IH ((c + 1) mod n) p K) as (sk & K' & E1 & E2); [apply Nat.mod_upper_bound; lia|exact H|]. exists (c :: sk), (S K'). split; [cbn; rewrite E1; reflexivity|].
      intros q [<-|I]; auto.
  Qed.

  Definition future (xs : nat -> list X) (o : list (nat * X)) : nat -> list X := fun p => skipn (length (outs_of p o)) (xs p).
  Definition visits (s : el) (K : nat) : list nat := map (@t_worker X) (e_tasks s) ++ cyc_seq (e_cyc s) K.

  Lemma count_of p (l : list task) : count (map (@t_worker X) l) p = length (of p l).
  Proof.
    induction l as [|[[i q] d] l IH]; [reflexivity|]. unfold count in *. cbn [map count_occ]. change (t_worker (i, q, d)) with q. destruct (Nat.eq_dec q p) as [->|NE].
    - unfold of in *. cbn [filter]. change (t_worker (i, p, d)) with p. rewrite Nat.eqb_refl. cbn [length]. f_equal. exact IH.
    - unfold of in *. cbn [filter]. change (t_worker (i, q, d)) with q. destruct (Nat.eqb_spec q p); [congruence|]. exact IH.
  Qed.
  Lemma skipn_app_exact {Y} (a b : list Y) : skipn (length a) (a ++ b) = b.
  Proof. rewrite skipn_app, skipn_all, Nat.sub_diag. reflexivity. Qed.

  (** what is left of a worker, split as the invariant has it *)
  Lemma future_wk p xs s o : inv n xs s o -> p < n -> exists ds pend rest, of p (e_tasks s) = some p ds ++ none p pend /\ future xs o p = map snd ds ++ rest /\
    (e_act s p = false -> rest = []).
  Proof.
    intros (_ & _ & _ & _ & HW) Hp. destruct (HW p Hp) as (ds & qd & pend & E1 & E2). unfold future. exists ds, pend.
    destruct (e_rem s p) as [r|], (e_act s p) eqn:A.
    - destruct E2 as (_ & _ & <-). exists (map snd qd ++ r). split; [exact E1|]. split; [apply skipn_app_exact|discriminate].
    - destruct E2.
    - destruct E2 as (_ & <-). exists (map snd qd). split; [exact E1|]. split; [apply skipn_app_exact|discriminate].
    - destruct E2 as (_ & <-). exists []. split; [exact E1|]. split; [rewrite app_nil_r; apply skipn_app_exact|reflexivity].
  Qed.

  Lemma try_put_visits xs s o K : inv n xs s o -> exists K', pops (visits (try_put n s) K) (future xs o) = pops (visits s K') (future xs o).
  Proof.
    intros I. pose proof I as (_ & _ & _ & HC & _). unfold try_put, visits. destruct (find_active n (e_act s) n (e_cyc s)) as [p|] eqn:E; [|eauto].
    destruct (@find_visits (e_act s) n (e_cyc s) p K HC E) as (sk & K' & E1 & E2). exists K'. cbn [e_tasks e_cyc]. rewrite E1. rewrite map_app. cbn [map]. change (t_worker (e_send s, p, None)) with p. rewrite <- app_assoc. cbn [app].
    rewrite !(pops_app (map (@t_worker X) (e_tasks s))). f_equal. rewrite (pops_app sk). rewrite (@pops_none sk).
    - cbn [app]. apply pops_ext. intros q. unfold rest_after at 2. destruct (in_dec Nat.eq_dec q sk) as [IQ|NQ].
      + destruct (E2 q IQ) as [Hq A]. replace (rest_after (map (@t_worker X) (e_tasks s)) (future xs o) q) with (@nil X); [rewrite skipn_nil; reflexivity|].
        destruct (future_wk I Hq) as (ds & pend & rest & F1 & F2 & F3). unfold rest_after. rewrite F2, (F3 A), app_nil_r. rewrite count_of, F1. symmetry. apply skipn_all2. rewrite app_length. unfold some. rewrite !map_length. lia.
      + unfold count. rewrite (proj1 (count_occ_not_In Nat.eq_dec sk q) NQ). reflexivity.
    - intros q IQ. destruct (E2 q IQ) as [Hq A]. destruct (future_wk I Hq) as (ds & pend & rest & F1 & F2 & F3). unfold rest_after. rewrite F2, (F3 A), app_nil_r. rewrite count_of, F1. apply skipn_all2. rewrite app_length. unfold some. rewrite !map_length. lia.
  Qed.

  Lemma future_out xs o p x r : future xs o p = x :: r -> forall q, future xs (o ++ [(p, x)]) q = fset (future xs o) p r q.
  Proof.
    intros E q. unfold future in *. destruct (Nat.eq_dec p q) as [<-|NE].
    - rewrite fset_eq, outs_app, outs_one_eq, app_length. cbn [length]. rewrite Nat.add_comm. change (1 + ?a) with (S a). revert E. generalize (length (outs_of p o)) as k. generalize (xs p) as l. clear.
      induction l as [|y l IH]; intros [|k] E; try discriminate; [injection E as <- <-; reflexivity|]. cbn [skipn] in *. rewrite <- (IH _ E). reflexivity.
    - rewrite fset_neq by auto. rewrite outs_app, outs_one_neq, app_nil_r by exact NE. reflexivity.
  Qed.

  (** a step that returns the first task's sample *)
  Lemma take_visits xs (s : el) o i p d t x r : e_tasks s = (i, p, d) :: t -> future xs o p = x :: r -> forall K,
    pops (visits s K) (future xs o) = (p, x) :: pops (visits (with_tasks t s) K) (future xs (o ++ [(p, x)])).
  Proof.
    intros Et Ef K. unfold visits. rewrite Et. cbn [map app pops with_tasks e_tasks e_cyc]. change (t_worker (i, p, d)) with p. rewrite Ef. f_equal. apply pops_ext. intros q. symmetry. apply future_out. exact Ef.
  Qed.

  Lemma step_visits xs s o o' s' K : inv n xs s o -> live n s -> estep n s o' s' ->
    exists K', o' ++ pops (visits s' K) (future xs (o ++ o')) = pops (visits s K') (future xs o).
  Proof.
    intros I L ST. assert (IL := step_inv Hn I L ST). destruct IL as [I' _].
    destruct ST as [s p i l x r Hp Ei Er|s p i l Hp Ei Er|s p i l Hp Ei Er|s i p t Et Ea|s i p x t Et|s i0 p0 t i p q Et Ea Eq|s i0 p0 t p x q Et Ea Eq|s i0 p0 t i p x q Et Ea Eq NI].
    - rewrite app_nil_r. exists K. reflexivity.
    - rewrite app_nil_r. exists K. reflexivity.
    - rewrite app_nil_r. exists K. reflexivity.
    - rewrite app_nil_r. exists K. cbn [app]. unfold visits. rewrite Et. cbn [with_tasks e_tasks e_cyc map app pops]. change (t_worker (i, p, None)) with p.
      assert (Hp : p < n) by (destruct I as (_ & HT & _); apply (HT (i, p, None)); rewrite Et; left; reflexivity).
      destruct (future_wk I Hp) as (ds & pend & rest & F1 & F2 & F3). rewrite Et, of_cons_eq in F1. symmetry in F1. apply some_none_head in F1. destruct F1 as (-> & _). rewrite F2, (F3 Ea). reflexivity.
    - assert (Hp : p < n) by (destruct I as (_ & HT & _); apply (HT (i, p, Some x)); rewrite Et; left; reflexivity).
      destruct (future_wk I Hp) as (ds & pend & rest & F1 & F2 & F3). rewrite Et, of_cons_eq in F1. destruct ds as [|[j y] ds]; [destruct pend; discriminate|]. cbn [some map app fst snd] in F1. injection F1 as <- <- F1.
      cbn [map snd app] in F2.
      assert (I2 : inv n xs (with_tasks t s) (o ++ [(p, x)])).
      { (* as in step_inv *) destruct I as (ND & HT & HQ & HC & HW). unfold inv, with_tasks. cbn [e_tasks e_send e_iq e_q e_act e_cyc e_rem]. rewrite Et in *.
        split; [inversion ND; assumption|]. split; [intros; apply HT; right; assumption|]. split; [exact HQ|]. split; [exact HC|].
        intros q Hq. rewrite outs_app. destruct (HW q Hq) as (ds1 & qd & pend1 & E1 & E2). destruct (Nat.eq_dec p q) as [<-|NE].
        - rewrite outs_one_eq. rewrite of_cons_eq in E1. destruct ds1 as [|[j y] ds1]; [destruct pend1; discriminate|]. cbn [some map app fst snd] in E1. injection E1 as <- <- E1.
          exists ds1, qd, pend1. split; [exact E1|]. cbn [map snd] in E2. destruct (e_rem s p), (e_act s p); try (exact E2); intuition; rewrite <- app_assoc; cbn [app]; assumption.
        - rewrite outs_one_neq, app_nil_r by auto. rewrite of_cons_neq in E1 by exact NE. exists ds1, qd, pend1. auto. }
      destruct (@try_put_visits xs (with_tasks t s) (o ++ [(p, x)]) K I2) as (K' & E). exists K'. rewrite E. cbn [app]. symmetry. apply (take_visits Et F2).
    - rewrite app_nil_r in *. set (s1 := mkEl _ _ _ q _ _ _) in *.
      assert (I2 : inv n xs s1 o).
      { destruct I as (ND & HT & HQ & HC & HW). unfold inv, s1. cbn [e_tasks e_send e_iq e_q e_act e_cyc e_rem].
        split; [exact ND|]. split; [exact HT|]. rewrite Eq in *. split; [intros; apply HQ; right; assumption|]. split; [exact HC|].
        intros r Hr. destruct (HW r Hr) as (ds & qd & pend & E1 & E2). destruct (Nat.eq_dec p r) as [<-|NE].
        - rewrite of_cons_eq in E2. rewrite fset_eq. exists ds, qd, pend. split; [exact E1|]. destruct (e_rem s p), (e_act s p); [| |destruct E2 as ((j & more & F1 & F2) & F3)|].
          + destruct E2 as (F1 & _). destruct qd; discriminate.
          + destruct E2.
          + destruct qd as [|[k y] qd]; [|discriminate]. cbn in F1. injection F1 as <- F1. split; [exact F1|]. cbn in F3. rewrite app_nil_r in F3. exact F3.
          + destruct E2 as (F1 & _). discriminate.
        - rewrite of_cons_neq in E2 by exact NE. rewrite fset_neq by auto. exists ds, qd, pend. auto. }
      destruct (@try_put_visits xs s1 o K I2) as (K' & E). exists K'. cbn [app]. rewrite E. reflexivity.
    - (* the sample that arrived is the first one left of its worker *)
      pose proof I as (ND & HT & HQ & HC & HW). assert (Hp : p < n) by (apply (HQ (i0, p, Some x)); rewrite Eq; left; reflexivity).
      destruct (HW p Hp) as (ds & qd & pend & E1 & E2). rewrite Eq, of_cons_eq in E2.
      assert (Q : exists qd' rest, qd = (i0, x) :: qd' /\ (exists pend', pend = i0 :: pend') /\ xs p = outs_of p o ++ map snd ds ++ x :: rest).
      { destruct (e_rem s p) as [r|], (e_act s p); [| |destruct E2 as ((j & more & F1 & F2) & F3)|].
        - destruct E2 as (F1 & F2 & F3). destruct qd as [|[k y] qd]; [discriminate|]. cbn in F1, F2, F3. injection F1 as <- <- _. eauto 8.
        - destruct E2.
        - destruct qd as [|[k y] qd]; [discriminate|]. cbn in F1, F2, F3. injection F1 as <- <- _. eauto 8.
        - destruct E2; discriminate. }
      destruct Q as (qd' & rest & -> & (pend' & ->) & EX).
      assert (IN : In (i0, p, None) (e_tasks s)) by (apply in_of with (p := p); rewrite E1; apply in_app_iff; right; left; reflexivity).
      destruct (@same_worker _ _ i0 p p0 None None ND IN) as [<- _]; [rewrite Et; left; reflexivity|].
      rewrite Et, of_cons_eq in E1. symmetry in E1. apply some_none_head in E1. destruct E1 as (-> & pend2 & [= <-] & E1). cbn [map app] in EX.
      assert (F2 : future xs o p = x :: rest) by (unfold future; rewrite EX; apply skipn_app_exact).
      assert (I2 : inv n xs (with_q q (with_tasks t s)) (o ++ [(p, x)])).
      { unfold inv, with_q, with_tasks. cbn [e_tasks e_send e_iq e_q e_act e_cyc e_rem]. rewrite Et in *. rewrite Eq in *.
        split; [inversion ND; assumption|]. split; [intros; apply HT; right; assumption|]. split; [intros; apply HQ; right; assumption|]. split; [exact HC|].
        intros r Hr. rewrite outs_app. destruct (Nat.eq_dec p r) as [<-|NE].
        - rewrite outs_one_eq. exists [], qd', pend'. split; [exact E1|]. destruct (e_rem s p), (e_act s p); try (destruct E2; fail).
          + destruct E2 as (F1 & F3 & F4). cbn in F1, F3. injection F1 as F1. injection F3 as ->. cbn [map app snd] in *. rewrite <- app_assoc. auto.
          + destruct E2 as ((j & more & F1 & F3) & F4). cbn in F1, F3. injection F1 as F1. injection F3 as ->. cbn [map app snd] in *. rewrite <- app_assoc. split; [eauto|exact F4].
          + destruct E2; discriminate.
        - rewrite outs_one_neq, app_nil_r by auto. destruct (HW r Hr) as (ds & qd'' & pend'' & G1 & G2). rewrite of_cons_neq in G1, G2 by exact NE. exists ds, qd'', pend''. auto. }
      destruct (@try_put_visits xs (with_q q (with_tasks t s)) (o ++ [(p, x)]) K I2) as (K' & E). exists K'. rewrite E. cbn [app]. symmetry. exact (take_visits Et F2 K').
    - rewrite app_nil_r. exists K. cbn [app]. unfold visits, with_q, with_tasks. cbn [e_tasks e_cyc]. f_equal. f_equal. rewrite map_map. apply map_ext. intros t'. destruct (t_idx t' =? i); reflexivity.
  Qed.

  Lemma runs_visits f xs s o : 0 < f -> eruns n (e_start n f xs) o s -> forall K, exists K0, o ++ pops (visits s K) (future xs o) = pops (cyc_seq 0 K0) xs.
  Proof.
    intros Hf H. remember (e_start n f xs) as s0 eqn:E0. induction H as [s|s o s1 o' s2 H IH ST]; intros K.
    - subst s. unfold e_start. set (z := mkEl _ _ _ _ _ _ _). assert (Iz : inv n xs z []).
      { unfold inv, z. cbn. split; [constructor|]. split; [intros ? []|]. split; [intros ? []|]. split; [exact Hn|]. intros p Hp. exists [], [], []. cbn. auto. }
      assert (G : forall k s, inv n xs s [] -> exists K0, pops (visits (put_many n k s) K) (future xs []) = pops (visits s K0) (future xs [])).
      { induction k as [|k IHk]; intros s Is; [eauto|]. cbn [put_many]. destruct (IHk (try_put n s) (try_put_inv Hn Is)) as (K1 & E1). destruct (try_put_visits K1 Is) as (K2 & E2). exists K2. congruence. }
      destruct (G (f * n) z Iz) as (K0 & E). exists K0. cbn [app]. rewrite E. unfold visits, z. cbn [e_tasks e_cyc map app]. apply pops_ext. reflexivity.
    - destruct (runs_inv Hn Hf (eq_rect _ (fun s => eruns n s o s1) H _ E0)) as [I L]. destruct (step_visits K I L ST) as (K1 & E1). destruct (IH E0 K1) as (K0 & E2). exists K0. rewrite <- E2, <- E1, app_assoc. reflexivity.
  Qed.

  (** full rounds *)
  Lemma cyc_from c k : c + k <= n -> cyc_seq c k = seq c k.
  Proof.
    revert c. induction k as [|k IH]; intros c H; [reflexivity|]. cbn [cyc_seq seq]. f_equal. destruct k as [|k]; [reflexivity|]. rewrite Nat.mod_small by lia. rewrite IH by lia. f_equal. lia.
  Qed.
  Lemma cyc_app a : forall c b, c < n -> cyc_seq c (a + b) = cyc_seq c a ++ cyc_seq ((c + a) mod n) b.
  Proof.
    induction a as [|a IH]; intros c b Hc; [cbn; rewrite Nat.add_0_r, Nat.mod_small by lia; reflexivity|]. cbn [Nat.add cyc_seq app]. f_equal. rewrite IH by (apply Nat.mod_upper_bound; lia). f_equal. f_equal.
    rewrite Nat.add_mod_idemp_l by lia. f_equal. lia.
  Qed.
  Lemma pops_once ws : NoDup ws -> forall u, pops ws u = flat_map (fun p => match u p with [] => [] | x :: _ => [(p, x)] end) ws.
  Proof.
    induction 1 as [|p ws NI ND IH]; intros u; [reflexivity|]. cbn [pops flat_map]. destruct (u p) as [|x r]; [apply IH|]. cbn [app]. f_equal. rewrite IH. rewrite !flat_map_concat_map. f_equal. apply map_ext_in.
    intros q Iq. rewrite fset_neq; [reflexivity|]. intros ->. contradiction.
  Qed.
  Lemma skipn_head {Y} k (l : list Y) : match skipn k l with [] => None | x :: _ => Some x end = nth_error l k.
  Proof. revert l. induction k; intros [|y l]; try reflexivity. apply IHk. Qed.
  Lemma skipn_skipn' {Y} a : forall b (l : list Y), skipn a (skipn b l) = skipn (a + b) l.
  Proof. intros b. induction b as [|b IH]; intros l; [rewrite Nat.add_0_r; reflexivity|]. rewrite Nat.add_succ_r. destruct l; [rewrite !skipn_nil; reflexivity|]. cbn [skipn]. apply IH. Qed.
  Lemma pops_rounds xs m : forall k, pops (cyc_seq 0 (m * n)) (fun p => if p <? n then skipn k (xs p) else xs p) = flat_map (round n xs) (seq k m).
  Proof.
    induction m as [|m IH]; intros k; [reflexivity|]. cbn [seq flat_map Nat.mul]. rewrite cyc_app by lia. cbn [Nat.add]. rewrite Nat.mod_same by lia. rewrite pops_app. rewrite (@cyc_from 0 n) by lia. f_equal.
    - rewrite pops_once by apply seq_NoDup. unfold round. rewrite !flat_map_concat_map. f_equal. apply map_ext_in. intros p Ip. apply in_seq in Ip. destruct (Nat.ltb_spec p n); [|lia].
      rewrite <- skipn_head. destruct (skipn k (xs p)); reflexivity.
    - rewrite <- IH. apply pops_ext. intros p. unfold rest_after. destruct (Nat.ltb_spec p n).
      + rewrite skipn_skipn'. f_equal. unfold count. assert (Q : count_occ Nat.eq_dec (seq 0 n) p = 1).
        { apply NoDup_count_occ'; [apply seq_NoDup|apply in_seq; lia]. }
        rewrite Q. reflexivity.
      + unfold count. rewrite (proj1 (count_occ_not_In Nat.eq_dec (seq 0 n) p)); [reflexivity|]. rewrite in_seq. lia.
  Qed.

  Lemma cyc_bound c k : c < n -> forall p, In p (cyc_seq c k) -> p < n.
  Proof. revert c. induction k as [|k IH]; intros c Hc p I; [destruct I|]. destruct I as [<-|I]; [exact Hc|]. apply (IH ((c + 1) mod n)); [apply Nat.mod_upper_bound; lia|exact I]. Qed.
  Lemma count_rounds m p : p < n -> count (cyc_seq 0 (m * n)) p = m.
  Proof.
    intros Hp. induction m as [|m IH]; [reflexivity|]. cbn [Nat.mul]. rewrite cyc_app by lia. cbn [Nat.add]. rewrite Nat.mod_same by lia. unfold count in *. rewrite count_occ_app, IH. rewrite (@cyc_from 0 n) by lia.
    replace (count_occ Nat.eq_dec (seq 0 n) p) with 1; [reflexivity|]. symmetry. apply NoDup_count_occ'; [apply seq_NoDup|apply in_seq; lia].
  Qed.

  (** any number of visits gives a prefix of the samples in turn *)
  Lemma pops_prefix xs K : exists rest, in_turn n xs = pops (cyc_seq 0 K) xs ++ rest.
  Proof.
    set (m := list_max (map (fun p => length (xs p)) (seq 0 n))).
    assert (E : in_turn n xs = pops (cyc_seq 0 (m * n)) xs).
    { unfold in_turn. fold m. rewrite <- pops_rounds. apply pops_ext. intros p. destruct (p <? n); reflexivity. }
    assert (Z : forall K, pops (cyc_seq 0 (m * n + K)) xs = pops (cyc_seq 0 (m * n)) xs).
    { intros J. rewrite cyc_app by lia. rewrite pops_app. rewrite (@pops_none (cyc_seq ((0 + m * n) mod n) J)); [apply app_nil_r|]. intros p Ip. apply cyc_bound in Ip; [|apply Nat.mod_upper_bound; lia]. unfold rest_after. rewrite count_rounds by exact Ip.
      apply skipn_all2. unfold m. assert (Q := proj1 (list_max_le (map (fun p => length (xs p)) (seq 0 n)) _) (le_n _)). rewrite Forall_forall in Q. apply Q. apply in_map_iff. exists p. split; [reflexivity|apply in_seq; lia]. }
    rewrite E, <- (Z K). replace (m * n + K) with (K + m * n) by lia. rewrite cyc_app by lia. rewrite pops_app. eauto.
  Qed.

  Theorem epoch_order_prefix f (xs : nat -> list X) s o : 0 < f -> eruns n (e_start n f xs) o s -> exists rest, in_turn n xs = o ++ rest.
  Proof.
    intros Hf H. destruct (runs_visits Hf H 0) as (K0 & E). destruct (pops_prefix xs K0) as (rest & E2). rewrite <- E in E2. rewrite <- app_assoc in E2. eauto.
  Qed.

  Lemma outs_all_empty (o : list (nat * X)) : (forall px, In px o -> fst px < n) -> (forall p, p < n -> outs_of p o = []) -> o = [].
  Proof.
    destruct o as [|[p x] o]; [reflexivity|]. intros H1 H2. specialize (H2 p (H1 _ (or_introl eq_refl))). unfold outs_of in H2. cbn in H2. rewrite Nat.eqb_refl in H2. discriminate.
  Qed.
  Lemma turn_workers (xs : nat -> list X) px : In px (in_turn n xs) -> fst px < n.
  Proof.
    unfold in_turn, round. intros I. apply in_flat_map in I. destruct I as (k & _ & I). apply in_flat_map in I. destruct I as (p & Ip & I). apply in_seq in Ip. destruct (nth_error (xs p) k); [|destruct I].
    destruct I as [<-|[]]. cbn. lia.
  Qed.
  (** each worker's samples, in its order *)
  Lemma turn_outs (xs : nat -> list X) p : p < n -> outs_of p (in_turn n xs) = xs p.
  Proof.
    intros Hp. unfold in_turn. set (m := list_max _). assert (Hm : length (xs p) <= m).
    { unfold m. assert (Q := proj1 (list_max_le (map (fun p => length (xs p)) (seq 0 n)) _) (le_n _)). rewrite Forall_forall in Q. apply Q. apply in_map_iff. exists p. split; [reflexivity|apply in_seq; lia]. }
    assert (R : forall k, outs_of p (round n xs k) = match nth_error (xs p) k with Some x => [x] | None => [] end).
    { intros k. unfold round. assert (G : forall a j, outs_of p (flat_map (fun p0 => match nth_error (xs p0) k with Some x => [(p0, x)] | None => [] end) (seq a j)) =
        if (a <=? p) && (p <? a + j) then match nth_error (xs p) k with Some x => [x] | None => [] end else []).
      { intros a j. revert a. induction j as [|j IH]; intros a.
        - cbn [seq flat_map]. destruct (Nat.leb_spec a p), (Nat.ltb_spec p (a + 0)); try reflexivity; lia.
        - cbn [seq flat_map]. rewrite outs_app, IH. destruct (Nat.eq_dec a p) as [->|NE].
          + replace (outs_of p (match nth_error (xs p) k with Some x => [(p, x)] | None => [] end)) with (match nth_error (xs p) k with Some x => [x] | None => [] end) by (destruct (nth_error (xs p) k); [rewrite outs_one_eq|]; reflexivity).
            destruct (Nat.leb_spec (S p) p); [lia|]. destruct (Nat.leb_spec p p); [|lia]. destruct (Nat.ltb_spec p (p + S j)); [|lia]. cbn [andb]. apply app_nil_r.
          + replace (outs_of p (match nth_error (xs a) k with Some x => [(a, x)] | None => [] end)) with (@nil X) by (destruct (nth_error (xs a) k); [rewrite outs_one_neq by exact NE|]; reflexivity). cbn [app].
            destruct (Nat.leb_spec (S a) p), (Nat.leb_spec a p); try lia; cbn [andb]; [|reflexivity]. destruct (Nat.ltb_spec p (S a + j)), (Nat.ltb_spec p (a + S j)); try reflexivity; lia. }
      rewrite G. cbn [Nat.add]. destruct (Nat.leb_spec 0 p); [|lia]. destruct (Nat.ltb_spec p n); [reflexivity|lia]. }
    assert (G : forall m k, k + m >= length (xs p) -> outs_of p (flat_map (round n xs) (seq k m)) = skipn k (xs p)).
    { clear -R. induction m as [|m IH]; intros k H; [cbn; symmetry; apply skipn_all2; lia|]. cbn [seq flat_map]. rewrite outs_app, R, IH by lia.
      clear. generalize (xs p) as l. induction k as [|k IHk]; intros [|y l]; try reflexivity. cbn [nth_error]. change (skipn (S (S k)) (y :: l)) with (skipn (S k) l). rewrite IHk. reflexivity. }
    rewrite G by lia. reflexivity.
  Qed.

  Theorem epoch_order f (xs : nat -> list X) s o : 0 < f -> eruns n (e_start n f xs) o s -> e_stops s -> o = in_turn n xs.
  Proof.
    intros Hf H HS. destruct (epoch_order_prefix Hf H) as (rest & E). replace rest with (@nil (nat * X)) in E; [rewrite app_nil_r in E; auto|]. symmetry. apply outs_all_empty.
    - intros px I. apply (@turn_workers xs). rewrite E. apply in_app_iff. right. exact I.
    - intros p Hp. assert (Q := turn_outs xs Hp). rewrite E, outs_app in Q. rewrite (epoch_complete Hn Hf H HS Hp) in Q. rewrite <- (app_nil_r (xs p)) in Q at 2. apply app_inv_head in Q. exact Q.
  Qed.

  Lemma outs_permutation (o : list (nat * X)) : (forall px, In px o -> fst px < n) -> Permutation (map snd o) (concat (map (fun p => outs_of p o) (seq 0 n))).
  Proof.
    induction o as [|[p x] o IH]; intros H.
    - cbn. assert (G : forall l : list nat, concat (map (fun _ => @nil X) l) = []) by (induction l; auto). unfold outs_of. cbn. rewrite G. constructor.
    - cbn [map snd]. rewrite IH by (intros; apply H; right; assumption). assert (Hp : p < n) by (apply (H (p, x)); left; reflexivity).
      replace (seq 0 n) with (seq 0 p ++ p :: seq (S p) (n - S p)).
      2:{ replace n with (p + S (n - S p)) at 2 by lia. rewrite seq_app. reflexivity. }
      rewrite !map_app, !concat_app. cbn [map concat].
      assert (E : forall l, ~ In p l -> map (fun q => outs_of q ((p, x) :: o)) l = map (fun q => outs_of q o) l).
      { intros l NI. apply map_ext_in. intros q Iq. unfold outs_of. cbn. destruct (Nat.eqb_spec p q); [subst; contradiction|reflexivity]. }
      rewrite !E by (rewrite in_seq; lia). replace (outs_of p ((p, x) :: o)) with (x :: outs_of p o) by (unfold outs_of; cbn; rewrite Nat.eqb_refl; reflexivity).
      cbn [app]. apply Permutation_middle.
  Qed.
End Order.
