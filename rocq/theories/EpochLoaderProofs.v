(** Proofs about EpochLoader.v *)
From Verif Require Import Base EpochLoader.
Local Open Scope nat_scope.

Lemma fset_eq {V} (f : nat -> V) p v : fset f p v p = v.
Proof. unfold fset. rewrite Nat.eqb_refl. reflexivity. Qed.
Lemma fset_neq {V} (f : nat -> V) p v q : q <> p -> fset f p v q = f q.
Proof. intros H. unfold fset. destruct (Nat.eqb_spec q p); [congruence|reflexivity]. Qed.

Section Proofs.
  Context {X : Type} (n : nat) (Hn : 0 < n).
  Notation task := (@task X).
  Notation el := (@el X).

  Definition of (p : nat) (l : list task) : list task := filter (fun t => t_worker t =? p) l.
  Lemma of_app p l l' : of p (l ++ l') = of p l ++ of p l'.
  Proof. apply filter_app. Qed.
  Lemma of_cons_eq p i d l : of p ((i, p, d) :: l) = (i, p, d) :: of p l.
  Proof. unfold of. cbn. rewrite Nat.eqb_refl. reflexivity. Qed.
  Lemma of_cons_neq p q i d l : q <> p -> of p ((i, q, d) :: l) = of p l.
  Proof. intros H. unfold of. cbn. destruct (Nat.eqb_spec q p); [congruence|reflexivity]. Qed.

  Definition some (p : nat) (l : list (nat * X)) : list task := map (fun ix => (fst ix, p, Some (snd ix))) l.
  Definition none (p : nat) (l : list nat) : list task := map (fun i => (i, p, None)) l.
  Definition outs_of (p : nat) (o : list (nat * X)) : list X := map snd (filter (fun px => fst px =? p) o).

  (** what is known about one worker: ds: arrived early; pend: tasks without sample; qd: samples in the queue *)
  Definition wk (p : nat) (xs : list X) (tp qp : list task) (iq : list nat) (rem : option (list X)) (act : bool) (out : list X) : Prop :=
    exists (ds qd : list (nat * X)) pend, tp = some p ds ++ none p pend /\
      match rem, act with
      | Some r, true => qp = some p qd /\ pend = map fst qd ++ iq /\ out ++ map snd ds ++ map snd qd ++ r = xs
      | None, true => (exists j more, qp = some p qd ++ [(j, p, None)] /\ pend = map fst qd ++ j :: more) /\ out ++ map snd ds ++ map snd qd = xs
      | None, false => qp = [] /\ out ++ map snd ds = xs
      | Some _, false => False
      end.

  Definition has_pending (s : el) : Prop := exists i p, In (i, p, None) (e_tasks s) /\ e_act s p = true.
  Definition inv (xs : nat -> list X) (s : el) (o : list (nat * X)) : Prop :=
    NoDup (map (@t_idx X) (e_tasks s)) /\ (forall t, In t (e_tasks s) -> t_idx t < e_send s /\ t_worker t < n) /\
    (forall t, In t (e_q s) -> t_worker t < n) /\ e_cyc s < n /\
    (forall p, p < n -> wk p (xs p) (of p (e_tasks s)) (of p (e_q s)) (e_iq s p) (e_rem s p) (e_act s p) (outs_of p o)).
  Definition live (s : el) : Prop := (exists p, p < n /\ e_act s p = true) -> has_pending s.

  Lemma find_active_some act c p : c < n -> find_active n act n c = Some p -> p < n /\ act p = true.
  Proof.
    intros Hc. assert (G : forall k c, c < n -> find_active n act k c = Some p -> p < n /\ act p = true); [|eauto].
    clear c Hc. induction k as [|k IH]; intros c Hc H; cbn in H; [discriminate|]. destruct (act c) eqn:E; [injection H as <-; auto|].
    apply (IH ((c + 1) mod n)); [apply Nat.mod_upper_bound; lia|exact H].
  Qed.
  Lemma find_active_none act c : c < n -> find_active n act n c = None -> forall p, p < n -> act p = false.
  Proof.
    intros Hc H. assert (G : forall k c, c < n -> find_active n act k c = None -> forall d, d < k -> act ((c + d) mod n) = false).
    { clear c Hc H. induction k as [|k IH]; intros c Hc H d Hd; [lia|]. cbn in H. destruct (act c) eqn:E; [discriminate|].
      destruct d as [|d]; [rewrite Nat.add_0_r, Nat.mod_small by lia; exact E|]. assert (Q := IH ((c + 1) mod n) ltac:(apply Nat.mod_upper_bound; lia) H d ltac:(lia)).
      rewrite Nat.add_mod_idemp_l in Q by lia. replace (c + 1 + d) with (c + S d) in Q by lia. exact Q. }
    intros p Hp. destruct (Nat.le_gt_cases c p) as [L|L].
    - assert (Q := G n c Hc H (p - c) ltac:(lia)). replace (c + (p - c)) with p in Q by lia. rewrite Nat.mod_small in Q by lia. exact Q.
    - assert (Q := G n c Hc H (p + n - c) ltac:(lia)). replace (c + (p + n - c)) with (p + 1 * n) in Q by lia. rewrite Nat.mod_add, Nat.mod_small in Q by lia. exact Q.
  Qed.

  Lemma try_put_inv xs s o : inv xs s o -> inv xs (try_put n s) o.
  Proof.
    intros (ND & HT & HQ & HC & HW). unfold try_put. destruct (find_active n (e_act s) n (e_cyc s)) as [p|] eqn:E; [|unfold inv; auto].
    destruct (find_active_some HC E) as [Hp Ha]. unfold inv. cbn [e_tasks e_send e_iq e_q e_act e_cyc e_rem].
    split. { rewrite map_app. cbn. apply (proj2 (NoDup_Add (Add_app (e_send s) (map (@t_idx X) (e_tasks s)) []))). rewrite app_nil_r. split; [exact ND|]. intros I. apply in_map_iff in I. destruct I as (t & Et & It). apply HT in It. lia. }
    split. { intros t I. apply in_app_iff in I. destruct I as [I|[<-|[]]]; [apply HT in I; lia|cbn; lia]. }
    split; [exact HQ|]. split; [apply Nat.mod_upper_bound; lia|]. intros q Hq. destruct (HW q Hq) as (ds & qd & pend & Et & Er).
    rewrite of_app. destruct (Nat.eq_dec p q) as [<-|NE].
    - rewrite of_cons_eq, fset_eq. exists ds, qd, (pend ++ [e_send s]). split; [rewrite Et; unfold none; rewrite map_app, app_assoc; reflexivity|]. rewrite Ha in *.
      destruct (e_rem s p) as [r|].
      + destruct Er as (E1 & E2 & E3). split; [exact E1|]. split; [rewrite E2, app_assoc; reflexivity|exact E3].
      + destruct Er as ((j & more & E1 & E2) & E3). split; [|exact E3]. exists j, (more ++ [e_send s]). split; [exact E1|]. rewrite E2, <- app_assoc. reflexivity.
    - rewrite of_cons_neq by exact NE. cbn [of filter]. rewrite app_nil_r, fset_neq by auto. exists ds, qd, pend. auto.
  Qed.
  Lemma try_put_live s : e_cyc s < n -> live (try_put n s).
  Proof.
    intros HC. unfold try_put. destruct (find_active n (e_act s) n (e_cyc s)) as [p|] eqn:E.
    - destruct (find_active_some HC E) as [Hp Ha]. intros _. exists (e_send s), p. cbn. split; [apply in_app_iff; right; left; reflexivity|exact Ha].
    - intros (p & Hp & Ha). rewrite (find_active_none HC E Hp) in Ha. discriminate.
  Qed.

  Lemma start_inv f xs : inv xs (e_start n f xs) [].
  Proof.
    unfold e_start. assert (G : forall k s, inv xs s [] -> inv xs (put_many n k s) []) by (induction k; intros; cbn; auto using try_put_inv). apply G.
    unfold inv. cbn. split; [constructor|]. split; [intros ? []|]. split; [intros ? []|]. split; [exact Hn|]. intros p Hp. exists [], [], []. cbn. auto.
  Qed.
  Lemma start_live f xs : 0 < f -> live (e_start n f xs).
  Proof.
    intros Hf. unfold e_start. destruct (f * n) as [|k] eqn:E; [nia|].
    assert (G : forall k s, e_cyc s < n -> live (put_many n (S k) s)).
    { clear -Hn. induction k as [|k IH]; intros s HC; [apply try_put_live; exact HC|]. change (put_many n (S (S k)) s) with (put_many n (S k) (try_put n s)). apply IH.
      unfold try_put. destruct (find_active _ _ _ _); [cbn; apply Nat.mod_upper_bound; lia|exact HC]. }
    apply G. exact Hn.
  Qed.

  Lemma outs_app p o o' : outs_of p (o ++ o') = outs_of p o ++ outs_of p o'.
  Proof. unfold outs_of. rewrite filter_app, map_app. reflexivity. Qed.
  Lemma outs_one_eq p x : outs_of p [(p, x)] = [x].
  Proof. unfold outs_of. cbn. rewrite Nat.eqb_refl. reflexivity. Qed.
  Lemma outs_one_neq p q x : q <> p -> outs_of p [(q, x)] = [].
  Proof. intros H. unfold outs_of. cbn. destruct (Nat.eqb_spec q p); [congruence|reflexivity]. Qed.

  Lemma same_worker (l : list task) i p q d e : NoDup (map (@t_idx X) l) -> In (i, p, d) l -> In (i, q, e) l -> p = q /\ d = e.
  Proof.
    induction l as [|[[j r] f] l IH]; intros ND I1 I2; [destruct I1|]. inversion ND as [|? ? NI ND']; subst.
    assert (K : forall q e, In (i, q, e) l -> In i (map (@t_idx X) l)) by (intros q' e' I; apply (in_map (@t_idx X)) in I; exact I).
    destruct I1 as [E1|I1], I2 as [E2|I2].
    - injection E1 as -> -> ->. injection E2 as -> ->. auto.
    - injection E1 as -> -> ->. exfalso. apply NI. exact (K _ _ I2).
    - injection E2 as -> -> ->. exfalso. apply NI. exact (K _ _ I1).
    - auto.
  Qed.
  Lemma in_of p l t : In t (of p l) -> In t l.
  Proof. intros H. apply filter_In in H. tauto. Qed.

  (** an answer in the queue belongs to the first task of its worker that has no sample yet *)
  Lemma set_data (l : list task) i x : forall p ds pend, of p l = some p ds ++ none p (i :: pend) -> NoDup (map (@t_idx X) l) ->
    of p (map (fun t : task => if t_idx t =? i then (t_idx t, t_worker t, Some x) else t) l) = some p (ds ++ [(i, x)]) ++ none p pend.
  Proof.
    intros p. induction l as [|[[j q] d] l IH]; intros ds pend E ND.
    - destruct ds; discriminate.
    - inversion ND as [|? ? NI ND']; subst. change (t_idx (j, q, d)) with j in *. cbn [map t_idx t_worker fst snd]. destruct (Nat.eq_dec q p) as [->|NE].
      + rewrite of_cons_eq in E. destruct ds as [|[k y] ds].
        * cbn [some map app none] in E. injection E as -> -> E. rewrite Nat.eqb_refl. rewrite of_cons_eq. cbn [some map app fst snd]. f_equal.
          assert (G : forall l' : list task, ~ In i (map (@t_idx X) l') -> map (fun t : task => if t_idx t =? i then (t_idx t, t_worker t, Some x) else t) l' = l').
          { clear. induction l' as [|t l' IH]; intros N; [reflexivity|]. cbn [map]. cbn in N. destruct (Nat.eqb_spec (t_idx t) i); [tauto|]. f_equal. apply IH. tauto. }
          rewrite G by exact NI. exact E.
        * cbn [some map app fst snd] in E. injection E as <- -> E. assert (NEj : j <> i).
          { intros ->. apply NI. assert (I : In (i, p, None) (of p l)) by (rewrite E; apply in_app_iff; right; left; reflexivity). apply in_of in I. apply (in_map (@t_idx X)) in I. exact I. }
          destruct (Nat.eqb_spec j i); [congruence|]. rewrite of_cons_eq. cbn [some map app fst snd]. f_equal. apply IH; assumption.
      + rewrite of_cons_neq in E by exact NE. destruct (j =? i); (rewrite of_cons_neq by exact NE; apply IH; assumption).
  Qed.
  Lemma set_other (l : list task) i x p : ~ (exists d, In (i, p, d) l) ->
    of p (map (fun t : task => if t_idx t =? i then (t_idx t, t_worker t, Some x) else t) l) = of p l.
  Proof.
    induction l as [|[[j q] d] l IH]; intros N; [reflexivity|]. cbn [map t_idx t_worker fst snd]. destruct (Nat.eq_dec q p) as [->|NE].
    - destruct (Nat.eqb_spec j i) as [->|NJ]; [exfalso; apply N; exists d; left; reflexivity|]. rewrite !of_cons_eq. f_equal. apply IH. intros (e & I). apply N. exists e. right. exact I.
    - assert (NN : ~ (exists d, In (i, p, d) l)) by (intros (e & I); apply N; exists e; right; exact I).
      destruct (j =? i); rewrite !of_cons_neq by exact NE; apply IH; exact NN.
  Qed.
  Lemma set_idx (l : list task) i x : map (@t_idx X) (map (fun t : task => if t_idx t =? i then (t_idx t, t_worker t, Some x) else t) l) = map (@t_idx X) l.
  Proof. rewrite map_map. apply map_ext. intros t. destruct (t_idx t =? i); reflexivity. Qed.

  Lemma some_none_head p (ds : list (nat * X)) pend i rest : some p ds ++ none p pend = (i, p, None) :: rest -> ds = [] /\ exists pend', pend = i :: pend' /\ rest = none p pend'.
  Proof. destruct ds; [|discriminate]. destruct pend as [|j pend]; [discriminate|]. cbn. intros [= -> <-]. eauto. Qed.

  Lemma step_inv xs s o o' s' : inv xs s o -> live s -> estep n s o' s' -> inv xs s' (o ++ o') /\ live s'.
  Proof.
    intros I L ST. destruct ST as [s p i l x r Hp Ei Er|s p i l Hp Ei Er|s p i l Hp Ei Er|s i p t Et Ea|s i p x t Et|s i0 p0 t i p q Et Ea Eq|s i0 p0 t p x q Et Ea Eq|s i0 p0 t i p x q Et Ea Eq NI].
    - (* work *) rewrite app_nil_r. split; [|exact L]. destruct I as (ND & HT & HQ & HC & HW). unfold inv. cbn [e_tasks e_send e_iq e_q e_act e_cyc e_rem].
      split; [exact ND|]. split; [exact HT|]. split; [intros t I; apply in_app_iff in I; destruct I as [I|[<-|[]]]; [auto|exact Hp]|]. split; [exact HC|].
      intros q Hq. rewrite of_app. destruct (Nat.eq_dec p q) as [<-|NE].
      + rewrite of_cons_eq, !fset_eq. destruct (HW p Hp) as (ds & qd & pend & E1 & E2). rewrite Er in E2. exists ds, (qd ++ [(i, x)]), pend. split; [exact E1|].
        destruct (e_act s p); [|destruct E2]. destruct E2 as (F1 & F2 & F3). rewrite Ei in F2. split; [rewrite F1; unfold some; rewrite map_app; reflexivity|].
        rewrite !map_app. cbn [map fst snd]. split; [rewrite F2, <- app_assoc; reflexivity|]. rewrite <- F3, <- !app_assoc. reflexivity.
      + rewrite of_cons_neq, !fset_neq by auto. cbn [of filter]. rewrite app_nil_r. apply HW. exact Hq.
    - (* end *) rewrite app_nil_r. split; [|exact L]. destruct I as (ND & HT & HQ & HC & HW). unfold inv. cbn [e_tasks e_send e_iq e_q e_act e_cyc e_rem].
      split; [exact ND|]. split; [exact HT|]. split; [intros t I; apply in_app_iff in I; destruct I as [I|[<-|[]]]; [auto|exact Hp]|]. split; [exact HC|].
      intros q Hq. rewrite of_app. destruct (Nat.eq_dec p q) as [<-|NE].
      + rewrite of_cons_eq, !fset_eq. destruct (HW p Hp) as (ds & qd & pend & E1 & E2). rewrite Er in E2. exists ds, qd, pend. split; [exact E1|].
        destruct (e_act s p); [|destruct E2]. destruct E2 as (F1 & F2 & F3). rewrite Ei in F2. split; [exists i, l; split; [rewrite F1; reflexivity|exact F2]|]. rewrite app_nil_r in F3. exact F3.
      + rewrite of_cons_neq, !fset_neq by auto. cbn [of filter]. rewrite app_nil_r. apply HW. exact Hq.
    - (* ignore *) rewrite app_nil_r. split; [|exact L]. destruct I as (ND & HT & HQ & HC & HW). unfold inv. cbn [e_tasks e_send e_iq e_q e_act e_cyc e_rem].
      split; [exact ND|]. split; [exact HT|]. split; [exact HQ|]. split; [exact HC|]. intros q Hq. destruct (Nat.eq_dec p q) as [<-|NE]; [|rewrite fset_neq by auto; apply HW; exact Hq].
      destruct (HW p Hp) as (ds & qd & pend & E1 & E2). rewrite Er in *. exists ds, qd, pend. split; [exact E1|exact E2].
    - (* skip *) rewrite app_nil_r. destruct I as (ND & HT & HQ & HC & HW). split.
      + unfold inv, with_tasks. cbn [e_tasks e_send e_iq e_q e_act e_cyc e_rem]. rewrite Et in *. split; [inversion ND; assumption|]. split; [intros; apply HT; right; assumption|]. split; [exact HQ|]. split; [exact HC|].
        intros q Hq. destruct (HW q Hq) as (ds & qd & pend & E1 & E2). destruct (Nat.eq_dec p q) as [<-|NE].
        * rewrite of_cons_eq in E1. symmetry in E1. apply some_none_head in E1. destruct E1 as (-> & pend' & -> & E1). rewrite E1. rewrite Ea in *. exists [], qd, pend'. split; [reflexivity|].
          destruct (e_rem s p); [destruct E2|exact E2].
        * rewrite of_cons_neq in E1 by exact NE. exists ds, qd, pend. auto.
      + intros A. destruct (L A) as (j & q & I & Q). rewrite Et in I. exists j, q. split; [|exact Q]. destruct I as [E|I]; [|exact I]. injection E as <- <-. cbn in Q. congruence.
    - (* buffered *) assert (I' : inv xs (with_tasks t s) (o ++ [(p, x)])).
      { destruct I as (ND & HT & HQ & HC & HW). unfold inv, with_tasks. cbn [e_tasks e_send e_iq e_q e_act e_cyc e_rem]. rewrite Et in *.
        split; [inversion ND; assumption|]. split; [intros; apply HT; right; assumption|]. split; [exact HQ|]. split; [exact HC|].
        intros q Hq. rewrite outs_app. destruct (HW q Hq) as (ds & qd & pend & E1 & E2). destruct (Nat.eq_dec p q) as [<-|NE].
        - rewrite outs_one_eq. rewrite of_cons_eq in E1. destruct ds as [|[j y] ds]; [destruct pend; discriminate|]. cbn [some map app fst snd] in E1. injection E1 as <- <- E1.
          exists ds, qd, pend. split; [exact E1|]. cbn [map snd] in E2. destruct (e_rem s p), (e_act s p); try (exact E2); intuition; rewrite <- app_assoc; cbn [app]; assumption.
        - rewrite outs_one_neq, app_nil_r by auto. rewrite of_cons_neq in E1 by exact NE. exists ds, qd, pend. auto. }
      split; [apply try_put_inv; exact I'|]. apply try_put_live. apply I'.
    - (* stop *) rewrite app_nil_r.
      set (s1 := mkEl _ _ _ q _ _ _). assert (I' : inv xs s1 o).
      { destruct I as (ND & HT & HQ & HC & HW). unfold inv, s1. cbn [e_tasks e_send e_iq e_q e_act e_cyc e_rem].
        split; [exact ND|]. split; [exact HT|]. rewrite Eq in *. split; [intros; apply HQ; right; assumption|]. split; [exact HC|].
        intros r Hr. destruct (HW r Hr) as (ds & qd & pend & E1 & E2). destruct (Nat.eq_dec p r) as [<-|NE].
        - rewrite of_cons_eq in E2. rewrite fset_eq. exists ds, qd, pend. split; [exact E1|]. destruct (e_rem s p), (e_act s p); [| |destruct E2 as ((j & more & F1 & F2) & F3)|].
          + destruct E2 as (F1 & _). destruct qd; discriminate.
          + destruct E2.
          + destruct qd as [|[k y] qd]; [|discriminate]. cbn in F1. injection F1 as <- F1. split; [exact F1|]. cbn in F3. rewrite app_nil_r in F3. exact F3.
          + destruct E2 as (F1 & _). discriminate.
        - rewrite of_cons_neq in E2 by exact NE. rewrite fset_neq by auto. exists ds, qd, pend. auto. }
      split; [apply try_put_inv; exact I'|]. apply try_put_live. apply I'.
    - (* now *) destruct I as (ND & HT & HQ & HC & HW).
      assert (Hp : p < n) by (apply (HQ (i0, p, Some x)); rewrite Eq; left; reflexivity).
      assert (PP : p = p0 /\ exists ds qd pend, of p (e_tasks s) = some p ds ++ none p pend /\ of p q = of p q /\ match e_rem s p, e_act s p with
        | Some r, true => of p q = some p qd /\ pend = i0 :: map fst qd ++ e_iq s p /\ outs_of p o ++ map snd ds ++ x :: map snd qd ++ r = xs p
        | None, true => (exists j more, of p q = some p qd ++ [(j, p, None)] /\ pend = i0 :: map fst qd ++ j :: more) /\ outs_of p o ++ map snd ds ++ x :: map snd qd = xs p
        | _, _ => False end).
      { destruct (HW p Hp) as (ds & qd & pend & E1 & E2). rewrite Eq in E2. rewrite of_cons_eq in E2.
        assert (Q : exists qd', qd = (i0, x) :: qd' /\ exists rest, pend = i0 :: rest).
        { destruct (e_rem s p), (e_act s p); [| |destruct E2 as ((j & more & F1 & F2) & F3)|].
          - destruct E2 as (F1 & F2 & _). destruct qd as [|[k y] qd]; [discriminate|]. cbn in F1, F2. injection F1 as <- <- _. eauto.
          - destruct E2.
          - destruct qd as [|[k y] qd]; [discriminate|]. cbn in F1, F2. injection F1 as <- <- _. eauto.
          - destruct E2; discriminate. }
        destruct Q as (qd' & -> & rest & Ep).
        assert (IN : In (i0, p, None) (e_tasks s)) by (apply in_of with (p := p); rewrite E1, Ep; apply in_app_iff; right; left; reflexivity).
        destruct (@same_worker _ i0 p p0 None None ND IN) as [PQ _]; [rewrite Et; left; reflexivity|]. split; [exact PQ|].
        exists ds, qd', pend. split; [exact E1|]. split; [reflexivity|]. destruct (e_rem s p), (e_act s p); [| |destruct E2 as ((j & more & F1 & F2) & F3)|].
        - destruct E2 as (F1 & F2 & F3). cbn in F1. injection F1 as F1. cbn [map fst snd app] in *. auto.
        - exact E2.
        - cbn in F1. injection F1 as F1. split; [|exact F3]. exists j, more. auto.
        - destruct E2; discriminate. }
      destruct PP as (<- & ds & qd & pend & E1 & _ & E2). rewrite Et in E1. rewrite of_cons_eq in E1. symmetry in E1. apply some_none_head in E1. destruct E1 as (-> & pend' & Ep & E1).
      assert (I' : inv xs (with_q q (with_tasks t s)) (o ++ [(p, x)])).
      { unfold inv, with_q, with_tasks. cbn [e_tasks e_send e_iq e_q e_act e_cyc e_rem]. rewrite Et in *. rewrite Eq in *.
        split; [inversion ND; assumption|]. split; [intros; apply HT; right; assumption|]. split; [intros; apply HQ; right; assumption|]. split; [exact HC|].
        intros r Hr. rewrite outs_app. destruct (Nat.eq_dec p r) as [<-|NE].
        - rewrite outs_one_eq. exists [], qd, pend'. split; [exact E1|]. destruct (e_rem s p), (e_act s p); try (destruct E2; fail).
          + destruct E2 as (F1 & F2 & F3). subst pend. injection F2 as ->. cbn [map app] in *. rewrite <- app_assoc. auto.
          + destruct E2 as ((j & more & F1 & F2) & F3). subst pend. injection F2 as ->. cbn [map app] in *. rewrite <- app_assoc. split; [eauto|exact F3].
        - rewrite outs_one_neq, app_nil_r by auto. destruct (HW r Hr) as (ds & qd' & pend'' & G1 & G2). rewrite of_cons_neq in G1, G2 by exact NE. exists ds, qd', pend''. auto. }
      split; [apply try_put_inv; exact I'|]. apply try_put_live. apply I'.
    - (* later *) rewrite app_nil_r. destruct I as (ND & HT & HQ & HC & HW).
      assert (Hp : p < n) by (apply (HQ (i, p, Some x)); rewrite Eq; left; reflexivity). split.
      + unfold inv, with_q, with_tasks. cbn [e_tasks e_send e_iq e_q e_act e_cyc e_rem]. rewrite set_idx. split; [exact ND|].
        split. { intros t' I. apply in_map_iff in I. destruct I as (t1 & <- & I). apply HT in I. destruct (t_idx t1 =? i); exact I. }
        split; [intros; apply HQ; rewrite Eq; right; assumption|]. split; [exact HC|]. intros r Hr. destruct (HW r Hr) as (ds & qd & pend & E1 & E2). rewrite Eq in E2. destruct (Nat.eq_dec p r) as [<-|NE].
        * rewrite of_cons_eq in E2. assert (Q : exists qd', qd = (i, x) :: qd' /\ exists rest, pend = i :: rest).
          { destruct (e_rem s p), (e_act s p); [| |destruct E2 as ((j & more & F1 & F2) & F3)|].
            - destruct E2 as (F1 & F2 & _). destruct qd as [|[k y] qd]; [discriminate|]. cbn in F1, F2. injection F1 as <- <- _. eauto.
            - destruct E2.
            - destruct qd as [|[k y] qd]; [discriminate|]. cbn in F1, F2. injection F1 as <- <- _. eauto.
            - destruct E2; discriminate. }
          destruct Q as (qd' & -> & rest & ->). exists (ds ++ [(i, x)]), qd', rest. split; [apply set_data; assumption|]. rewrite map_app. cbn [map snd fst] in *.
          destruct (e_rem s p), (e_act s p); [| |destruct E2 as ((j & more & F1 & F2) & F3)|].
          -- destruct E2 as (F1 & F2 & F3). cbn in F1. injection F1 as F1. cbn [app] in F2. injection F2 as F2. split; [exact F1|]. split; [exact F2|]. rewrite <- app_assoc. exact F3.
          -- exact E2.
          -- cbn in F1. injection F1 as F1. cbn [app] in F2. injection F2 as F2. split; [eauto|]. rewrite <- app_assoc. exact F3.
          -- destruct E2; discriminate.
        * rewrite of_cons_neq in E2 by exact NE. rewrite set_other; [exists ds, qd, pend; auto|]. intros (d & I).
          destruct (HW p Hp) as (ds' & qd' & pend' & G1 & G2). rewrite Eq, of_cons_eq in G2.
          assert (Q : exists rest, pend' = i :: rest).
          { destruct (e_rem s p), (e_act s p); [| |destruct G2 as ((j & more & F1 & F2) & F3)|].
            - destruct G2 as (F1 & F2 & _). destruct qd' as [|[k y] qd']; [discriminate|]. cbn in F1, F2. injection F1 as <- <- _. eauto.
            - destruct G2.
            - destruct qd' as [|[k y] qd']; [discriminate|]. cbn in F1, F2. injection F1 as <- <- _. eauto.
            - destruct G2; discriminate. }
          destruct Q as (rest & ->). assert (IN : In (i, p, None) (e_tasks s)) by (apply in_of with (p := p); rewrite G1; apply in_app_iff; right; left; reflexivity).
          destruct (same_worker ND IN I). congruence.
      + intros _. exists i0, p0. split; [|exact Ea]. unfold with_q, with_tasks. cbn [e_tasks]. apply in_map_iff. exists (i0, p0, None). split; [|rewrite Et; left; reflexivity].
        change (t_idx (i0, p0, None)) with i0. destruct (Nat.eqb_spec i0 i); [congruence|reflexivity].
  Qed.

  Lemma runs_inv f xs s o : 0 < f -> eruns n (e_start n f xs) o s -> inv xs s o /\ live s.
  Proof.
    intros Hf H. remember (e_start n f xs) as s0 eqn:E0. induction H as [s|s o s1 o' s2 H IH ST].
    - subst s. split; [apply start_inv|apply start_live; exact Hf].
    - destruct (IH E0) as [I L]. eapply step_inv; eassumption.
  Qed.

  (** when StopIteration is raised, every worker's samples have been returned, in its order *)
  Theorem epoch_complete f xs s o : 0 < f -> eruns n (e_start n f xs) o s -> e_stops s -> forall p, p < n -> outs_of p o = xs p.
  Proof.
    intros Hf H HS p Hp. destruct (runs_inv Hf H) as [I L]. unfold e_stops in HS. destruct I as (_ & _ & _ & _ & HW). destruct (HW p Hp) as (ds & qd & pend & E1 & E2). rewrite HS in E1.
    assert (ds = [] /\ pend = []) as [-> ->] by (destruct ds, pend; try discriminate; auto).
    assert (A : e_act s p = false). { destruct (e_act s p) eqn:A; [|reflexivity]. destruct L as (i & q & I & _); [eauto|]. rewrite HS in I. destruct I. }
    rewrite A in E2. destruct (e_rem s p); [destruct E2|]. destruct E2 as [_ E2]. cbn in E2. rewrite app_nil_r in E2. exact E2.
  Qed.

  (** before that, what was returned of a worker is a prefix of its samples *)
  Theorem epoch_prefix f xs s o : 0 < f -> eruns n (e_start n f xs) o s -> forall p, p < n -> exists rest, xs p = outs_of p o ++ rest.
  Proof.
    intros Hf H p Hp. destruct (runs_inv Hf H) as [(_ & _ & _ & _ & HW) _]. destruct (HW p Hp) as (ds & qd & pend & _ & E2).
    destruct (e_rem s p), (e_act s p); [destruct E2 as (_ & _ & <-)|destruct E2|destruct E2 as (_ & <-)|destruct E2 as (_ & <-)]; eauto.
  Qed.

  (** the loader never blocks *)
  Theorem epoch_progress f xs (s : el) o : 0 < f -> eruns n (e_start n f xs) o s -> e_stops s \/ exists o' (s' : el), estep n s o' s'.
  Proof.
    intros Hf H. destruct (runs_inv Hf H) as [(ND & HT & HQ & HC & HW) L]. unfold e_stops. destruct (e_tasks s) as [|[[i p] [x|]] t] eqn:Et; [left; reflexivity| |]; right.
    - eauto using es_buffered.
    - destruct (e_act s p) eqn:Ea; [|eauto using es_skip]. destruct (e_q s) as [|[[j q] [y|]] l] eqn:Eq.
      + assert (Hp : p < n) by (apply (HT (i, p, None)); left; reflexivity). destruct (HW p Hp) as (ds & qd & pend & E1 & E2). cbn [of filter] in E2. rewrite Ea in E2.
        rewrite of_cons_eq in E1. symmetry in E1. apply some_none_head in E1. destruct E1 as (-> & pend' & -> & _).
        destruct (e_rem s p) as [r|] eqn:Er.
        * destruct E2 as (F1 & F2 & _). destruct qd; [|discriminate]. cbn in F2. destruct r as [|x r]; [eauto using es_end|eauto using es_work].
        * destruct E2 as ((j & more & F1 & _) & _). destruct qd; discriminate.
      + destruct (Nat.eq_dec j i) as [->|NE]; [eauto using es_get_now|eauto using es_get_later].
      + eauto using es_get_stop.
  Qed.

  (** and it always comes to its end: every step decreases a measure *)
  Fixpoint total (f : nat -> nat) (k : nat) : nat := match k with 0 => 0 | S k' => total f k' + f k' end.
  Lemma total_ext f g k : (forall p, p < k -> f p = g p) -> total f k = total g k.
  Proof. induction k; intros H; cbn; [reflexivity|]. rewrite IHk by (intros; apply H; lia). rewrite H by lia. reflexivity. Qed.
  Lemma total_upd f g k p : p < k -> (forall q, q <> p -> f q = g q) -> total f k + g p = total g k + f p.
  Proof.
    induction k as [|k IH]; intros Hp H; [lia|]. cbn. destruct (Nat.eq_dec p k) as [->|NE].
    - rewrite (@total_ext f g k) by (intros; apply H; lia). lia.
    - specialize (IH ltac:(lia) H). rewrite (H k) by lia. lia.
  Qed.
  Definition left_of (r : option (list X)) : nat := match r with None => 0 | Some l => S (length l) end.
  Definition early (t : task) : nat := match snd t with Some _ => 3 | None => 1 end.
  Definition weight (s : el) : nat :=
    3 * total (fun p => left_of (e_rem s p)) n + 3 * length (e_q s) + list_sum (map early (e_tasks s)) + total (fun p => length (e_iq s p)) n.

  Lemma list_sum_app' l l' : list_sum (l ++ l') = list_sum l + list_sum l'.
  Proof. apply list_sum_app. Qed.
  Lemma try_put_weight s : e_cyc s < n -> weight (try_put n s) <= weight s + 2.
  Proof.
    intros HC. unfold try_put. destruct (find_active n (e_act s) n (e_cyc s)) as [p|] eqn:E; [|lia]. destruct (find_active_some HC E) as [Hp _]. unfold weight. cbn [e_tasks e_iq e_q e_rem].
    rewrite map_app, list_sum_app'. cbn [map early snd list_sum fold_right].
    assert (Q := @total_upd (fun q => length (fset (e_iq s) p (e_iq s p ++ [e_send s]) q)) (fun q => length (e_iq s q)) n p Hp). cbn beta in Q. rewrite fset_eq, app_length in Q. cbn [length] in Q.
    assert (Q2 : forall q, q <> p -> length (fset (e_iq s) p (e_iq s p ++ [e_send s]) q) = length (e_iq s q)) by (intros; rewrite fset_neq by assumption; reflexivity). specialize (Q Q2). lia.
  Qed.
  Lemma set_weight (l : list task) i x : NoDup (map (@t_idx X) l) ->
    list_sum (map early (map (fun t : task => if t_idx t =? i then (t_idx t, t_worker t, Some x) else t) l)) <= list_sum (map early l) + 2.
  Proof.
    induction l as [|t l IH]; intros ND; [cbn; lia|]. inversion ND as [|? ? NI ND']; subst. cbn [map]. change (list_sum (?a :: ?b)) with (a + list_sum b).
    destruct (Nat.eqb_spec (t_idx t) i) as [E|NE].
    - assert (G : map (fun t : task => if t_idx t =? i then (t_idx t, t_worker t, Some x) else t) l = l).
      { rewrite <- E. clear -NI. induction l as [|u l IH]; [reflexivity|]. cbn in NI. cbn [map]. destruct (Nat.eqb_spec (t_idx u) (t_idx t)); [exfalso; apply NI; left; assumption|]. f_equal. apply IH. tauto. }
      rewrite G. cbn [early snd]. unfold early. destruct (snd t); lia.
    - specialize (IH ND'). lia.
  Qed.

  Theorem step_weight xs (s : el) o o' s' : inv xs s o -> estep n s o' s' -> weight s' < weight s.
  Proof.
    intros (ND & _ & _ & HC & _) ST. destruct ST as [s p i l x r Hp Ei Er|s p i l Hp Ei Er|s p i l Hp Ei Er|s i p t Et Ea|s i p x t Et|s i0 p0 t i p q Et Ea Eq|s i0 p0 t p x q Et Ea Eq|s i0 p0 t i p x q Et Ea Eq NI].
    - unfold weight. cbn [e_tasks e_iq e_q e_rem]. rewrite app_length. cbn [length].
      assert (Q := @total_upd (fun q => length (fset (e_iq s) p l q)) (fun q => length (e_iq s q)) n p Hp ltac:(intros; cbn beta; rewrite fset_neq by assumption; reflexivity)). cbn beta in Q. rewrite fset_eq, Ei in Q. cbn [length] in Q.
      assert (Q2 := @total_upd (fun q => left_of (fset (e_rem s) p (Some r) q)) (fun q => left_of (e_rem s q)) n p Hp ltac:(intros; cbn beta; rewrite fset_neq by assumption; reflexivity)). cbn beta in Q2. rewrite fset_eq, Er in Q2. cbn [left_of length] in Q2. lia.
    - unfold weight. cbn [e_tasks e_iq e_q e_rem]. rewrite app_length. cbn [length].
      assert (Q := @total_upd (fun q => length (fset (e_iq s) p l q)) (fun q => length (e_iq s q)) n p Hp ltac:(intros; cbn beta; rewrite fset_neq by assumption; reflexivity)). cbn beta in Q. rewrite fset_eq, Ei in Q. cbn [length] in Q.
      assert (Q2 := @total_upd (fun q => left_of (fset (e_rem s) p None q)) (fun q => left_of (e_rem s q)) n p Hp ltac:(intros; cbn beta; rewrite fset_neq by assumption; reflexivity)). cbn beta in Q2. rewrite fset_eq, Er in Q2. cbn [left_of length] in Q2. lia.
    - unfold weight. cbn [e_tasks e_iq e_q e_rem].
      assert (Q := @total_upd (fun q => length (fset (e_iq s) p l q)) (fun q => length (e_iq s q)) n p Hp ltac:(intros; cbn beta; rewrite fset_neq by assumption; reflexivity)). cbn beta in Q. rewrite fset_eq, Ei in Q. cbn [length] in Q. lia.
    - unfold weight, with_tasks. cbn [e_tasks e_iq e_q e_rem]. rewrite Et. cbn [map]. change (list_sum (?a :: ?b)) with (a + list_sum b). cbn [early snd]. lia.
    - assert (Q := @try_put_weight (with_tasks t s) HC). unfold weight at 2 in Q. cbn [e_tasks e_iq e_q e_rem with_tasks] in Q. unfold weight at 2. rewrite Et. cbn [map]. change (list_sum (?a :: ?b)) with (a + list_sum b). cbn [early snd]. lia.
    - set (s1 := mkEl _ _ _ q _ _ _). assert (Q := @try_put_weight s1 HC). unfold weight at 2 in Q. unfold s1 in Q at 2 3 4 5. cbn [e_tasks e_iq e_q e_rem] in Q. unfold weight at 2. rewrite Eq. cbn [length]. lia.
    - assert (Q := @try_put_weight (with_q q (with_tasks t s)) HC). unfold weight at 2 in Q. cbn [e_tasks e_iq e_q e_rem with_tasks with_q] in Q. unfold weight at 2. rewrite Et, Eq. cbn [map length]. change (list_sum (?a :: ?b)) with (a + list_sum b). cbn [early snd]. lia.
    - assert (Q := @set_weight (e_tasks s) i x ND). unfold weight. cbn [e_tasks e_iq e_q e_rem with_tasks with_q]. rewrite Eq. cbn [length]. lia.
  Qed.

  Lemma runs_weight f xs (s : el) o : 0 < f -> eruns n (e_start n f xs) o s -> forall k, weight s <= k -> exists o' (s' : el), eruns n (e_start n f xs) (o ++ o') s' /\ e_stops s'.
  Proof.
    intros Hf H k. revert s o H. induction k as [|k IH]; intros s o H HW.
    - destruct (epoch_progress Hf H) as [S|(o' & s' & ST)]; [exists [], s; rewrite app_nil_r; auto|]. exfalso. destruct (runs_inv Hf H) as [I _]. assert (Q := step_weight I ST). lia.
    - destruct (epoch_progress Hf H) as [S|(o' & s' & ST)]; [exists [], s; rewrite app_nil_r; auto|]. destruct (runs_inv Hf H) as [I _]. assert (Q := step_weight I ST).
      destruct (IH s' (o ++ o')) as (o2 & s2 & R & S2); [econstructor; eassumption|lia|]. exists (o' ++ o2), s2. rewrite app_assoc. auto.
  Qed.
  Theorem epoch_finishes f xs (s : el) o : 0 < f -> eruns n (e_start n f xs) o s -> exists o' (s' : el), eruns n (e_start n f xs) (o ++ o') s' /\ e_stops s'.
  Proof. intros Hf H. exact (runs_weight Hf H (le_n _)). Qed.
End Proofs.
