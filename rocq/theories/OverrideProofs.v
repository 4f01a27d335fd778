(** Proofs about override. *)
From Coq Require Import String Ascii QArith.
From Verif Require Import Base Typed TypedSpec TypedProofs TypedCallProofs Override OverrideSpec.
Local Close Scope Q_scope.
Local Close Scope Z_scope.
Local Open Scope string_scope.
Local Open Scope list_scope.
Local Open Scope nat_scope.

(** *** dotted names *)
Lemma partition_app n r : is_name n -> partition_dot (n ++ String "." r)%string = Some (n, r).
Proof.
  induction n as [|c n IH]; cbn; intros H; [reflexivity|]. destruct H as (H1 & H2 & H3). destruct (Ascii.eqb_spec c "."); [contradiction|].
  rewrite (IH H3). reflexivity.
Qed.
Lemma partition_name n : is_name n -> partition_dot n = None.
Proof.
  induction n as [|c n IH]; cbn; intros H; [reflexivity|]. destruct H as (H1 & H2 & H3). destruct (Ascii.eqb_spec c "."); [contradiction|].
  rewrite (IH H3). reflexivity.
Qed.
Lemma partition_dotted n m p : is_name n -> partition_dot (dotted (n :: m :: p)) = Some (n, dotted (m :: p)).
Proof. intros H. change (dotted (n :: m :: p)) with (n ++ String "." (dotted (m :: p)))%string. apply partition_app. exact H. Qed.
Lemma dotted_inj p : forall q, Forall is_name p -> Forall is_name q -> p <> [] -> q <> [] -> dotted p = dotted q -> p = q.
Proof.
  induction p as [|n [|m p] IH]; intros [|n' [|m' q]] Hp Hq N1 N2 E; try contradiction.
  - cbn in E. congruence.
  - exfalso. assert (E2 := partition_dotted m' q (Forall_inv Hq)). rewrite <- E in E2. cbn [dotted] in E2. rewrite (partition_name (Forall_inv Hp)) in E2. discriminate.
  - exfalso. assert (E2 := partition_dotted m p (Forall_inv Hp)). rewrite E in E2. cbn [dotted] in E2. rewrite (partition_name (Forall_inv Hq)) in E2. discriminate.
  - assert (E1 := partition_dotted m p (Forall_inv Hp)). rewrite E, (partition_dotted m' q (Forall_inv Hq)) in E1. injection E1 as -> E1.
    f_equal. change (dotted (m' :: q) = dotted (m :: p)) in E1. apply IH; [exact (Forall_inv_tail Hp)|exact (Forall_inv_tail Hq)|discriminate|discriminate|congruence].
Qed.
Lemma undash_name n : is_name n -> undash n = n.
Proof. induction n as [|c n IH]; cbn; intros H; [reflexivity|]. destruct H as (H1 & H2 & H3). destruct (Ascii.eqb_spec c "-"); [contradiction|]. rewrite (IH H3). reflexivity. Qed.

(** *** grouping the changes by their first name *)
Definition change : Type := (list string * pv)%type.
Fixpoint below (n : string) (l : list change) : list change :=
  match l with
  | [] => []
  | (m :: p, x) :: l' => if String.eqb n m then (p, x) :: below n l' else below n l'
  | ([], _) :: l' => below n l'
  end.
Definition rep (l : list change) : option pv :=
  match l with
  | [] => None
  | [([], x)] => Some x
  | _ => Some (as_dict l)
  end.
Lemma below_app n l l' : below n (l ++ l') = below n l ++ below n l'.
Proof. induction l as [|[[|m p] x] l IH]; cbn; [reflexivity|exact IH|]. destruct (String.eqb n m); cbn; rewrite IH; reflexivity. Qed.
Lemma below_in n l p x : In (p, x) (below n l) <-> In (n :: p, x) l.
Proof.
  induction l as [|[[|m q] y] l IH]; cbn; [tauto| |].
  - rewrite IH. split; [auto|]. intros [E|H]; [discriminate|exact H].
  - destruct (String.eqb_spec n m) as [<-|N]; cbn; rewrite IH.
    + split; (intros [E|H]; [left; congruence|right; exact H]).
    + split; [auto|]. intros [E|H]; [congruence|exact H].
Qed.
Lemma comparable_cons n p q : comparable (n :: p) (n :: q) <-> comparable p q.
Proof. unfold comparable, begins. cbn. split; (intros [[r E]|[r E]]; [left|right]; exists r; congruence). Qed.
Lemma comparable_sym p q : comparable p q -> comparable q p.
Proof. intros [H|H]; [right|left]; exact H. Qed.
Lemma comparable_nil p : comparable [] p.
Proof. left. exists p. reflexivity. Qed.
Lemma comparable_refl p : comparable p p.
Proof. left. exists []. apply app_nil_r. Qed.
Lemma comparable_other n m p q : n <> m -> ~ comparable (n :: p) (m :: q).
Proof. intros N [[r E]|[r E]]; cbn in E; congruence. Qed.
Lemma below_pairs n l : ForallOrdPairs (fun a b => ~ comparable (fst a) (fst b)) l -> ForallOrdPairs (fun a b => ~ comparable (fst a) (fst b)) (below n l).
Proof.
  induction 1 as [|[[|m p] x] l H1 H2 IH]; cbn; [constructor|exact IH|]. destruct (String.eqb_spec n m) as [<-|N]; [|exact IH].
  constructor; [|exact IH]. rewrite Forall_forall in H1 |- *. intros [q y] Hq. apply below_in in Hq. specialize (H1 _ Hq). cbn in H1 |- *.
  intros C. apply H1. apply comparable_cons. exact C.
Qed.
Lemma pairs_alone x l : ForallOrdPairs (fun a b : change => ~ comparable (fst a) (fst b)) (([], x) :: l) -> l = [].
Proof. intros H. inversion H as [|? ? H1 H2]; subst. destruct l as [|[p y] l]; [reflexivity|]. exfalso. apply (Forall_inv H1). apply comparable_nil. Qed.
Lemma pairs_not_nil l p x y : ForallOrdPairs (fun a b : change => ~ comparable (fst a) (fst b)) l -> In (p, x) l -> In ([], y) l -> l = [([], y)].
Proof.
  induction 1 as [|[q z] l H1 H2 IH]; [intros []|]. intros Hp Hn. destruct Hn as [E|Hn].
  - injection E as -> ->. f_equal. rewrite Forall_forall in H1. destruct l as [|[r w] l]; [reflexivity|]. exfalso. apply (H1 (r, w)); [left; reflexivity|apply comparable_nil].
  - exfalso. rewrite Forall_forall in H1. apply (H1 _ Hn). cbn. apply comparable_sym, comparable_nil.
Qed.
Definition no_nil (l : list change) : Prop := forall p x, In (p, x) l -> p <> [].
Lemma below_cases n l : changes_ok l -> below n l = [] \/ (exists x, below n l = [([], x)]) \/ (below n l <> [] /\ no_nil (below n l)).
Proof.
  intros [_ H]. apply (below_pairs n) in H. destruct (below n l) as [|[p x] b] eqn:E; [left; reflexivity|]. right. destruct p as [|m p].
  - left. exists x. f_equal. exact (pairs_alone H).
  - right. split; [discriminate|]. intros q y Hq ->. assert (C := pairs_not_nil H (or_introl eq_refl) Hq). discriminate C.
Qed.
Lemma below_ok n l : changes_ok l -> no_nil (below n l) -> changes_ok (below n l).
Proof.
  intros [H1 H2] HN. split; [|apply below_pairs; exact H2]. intros p x Hp. assert (Hq := Hp). apply below_in in Hq. apply H1 in Hq as (_ & H3 & H4).
  split; [exact (HN _ _ Hp)|]. split; [exact (Forall_inv_tail H3)|exact H4].
Qed.
Lemma rep_cases n l : changes_ok l ->
  (below n l = [] /\ rep (below n l) = None) \/ (exists x, below n l = [([], x)] /\ rep (below n l) = Some x) \/
  (below n l <> [] /\ no_nil (below n l) /\ rep (below n l) = Some (as_dict (below n l))).
Proof.
  intros H. destruct (below_cases n H) as [E|[[x E]|[E1 E2]]].
  - left. rewrite E. split; reflexivity.
  - right. left. exists x. rewrite E. split; reflexivity.
  - right. right. split; [exact E1|]. split; [exact E2|]. destruct (below n l) as [|[[|m p] x] [|c b]]; try reflexivity; [contradiction|]. exfalso. apply (E2 [] x); [left; reflexivity|reflexivity].
Qed.

Definition reps (res : list (string * pv)) (l : list change) : Prop :=
  NoDup (map fst res) /\ Forall is_name (map fst res) /\ forall n, dget n res = rep (below n l).
Lemma changes_ok_app l c : changes_ok (l ++ [c]) -> changes_ok l.
Proof.
  intros [H1 H2]. split; [intros p x H; apply H1; apply in_or_app; auto|]. clear H1. induction l as [|a l IH]; [constructor|].
  cbn in H2. inversion H2 as [|? ? H3 H4]; subst. constructor; [|exact (IH H4)]. apply Forall_app in H3. apply H3.
Qed.
Lemma changes_app_last l p x q y : changes_ok (l ++ [(p, x)]) -> In (q, y) l -> ~ comparable q p.
Proof.
  intros [_ H] Hq. induction l as [|a l IH]; [destruct Hq|]. cbn in H. inversion H as [|? ? H3 H4]; subst. destruct Hq as [->|Hq]; [|exact (IH H4 Hq)].
  rewrite Forall_forall in H3. apply (H3 (p, x)). apply in_or_app. right. left. reflexivity.
Qed.
Lemma dput_other_keys k v d : Forall is_name (map fst d) -> is_name k -> Forall is_name (map fst (dput k v d)).
Proof. intros H1 H2. rewrite Forall_forall in *. intros x Hx. apply dput_keys in Hx as [->|Hx]; auto. Qed.
Lemma rep_other n l m p x : n <> m -> below n (l ++ [(m :: p, x)]) = below n l.
Proof. intros N. rewrite below_app. cbn. destruct (String.eqb_spec n m); [contradiction|]. apply app_nil_r. Qed.
Lemma rep_same n l p x : below n (l ++ [(n :: p, x)]) = below n l ++ [(p, x)].
Proof. rewrite below_app. cbn. rewrite String.eqb_refl. reflexivity. Qed.

Lemma split_step res l p x : changes_ok (l ++ [(p, x)]) -> reps res l ->
  exists res', reps res' (l ++ [(p, x)]) /\ forall d, split_loop res ((dotted p, x) :: d) = split_loop res' d.
Proof.
  intros HO (R1 & R2 & R3). assert (HL := changes_ok_app HO). destruct (proj1 HO p x) as (N & HN & HX); [apply in_or_app; right; left; reflexivity|].
  destruct p as [|n [|m r]]; [contradiction| |].
  - assert (HNn := Forall_inv HN).
    assert (below n l = []) as B.
    { destruct (below n l) as [|[q y] b] eqn:E; [reflexivity|]. exfalso. assert (In (n :: q, y) l) as Hq; [apply below_in; rewrite E; left; reflexivity|].
      apply (changes_app_last HO Hq). apply comparable_cons. apply comparable_sym, comparable_nil. }
    exists (dput n x res). split.
    + split; [apply dput_NoDup; exact R1|]. split; [apply dput_other_keys; assumption|]. intros k. destruct (String.eqb_spec k n) as [->|K].
      * rewrite dget_dput_same, rep_same, B. reflexivity.
      * rewrite (dget_dput_other x res (fun E => K (eq_sym E))), (@rep_other k l n [] x K). apply R3.
    + intros d. cbn [split_loop dotted]. rewrite (partition_name HNn). unfold has. rewrite R3, B. reflexivity.
  - assert (HNn := Forall_inv HN). assert (no_nil (below n l)) as NN.
    { intros q y Hq ->. apply below_in in Hq. apply (changes_app_last HO Hq). apply comparable_cons, comparable_nil. }
    destruct (rep_cases n HL) as [[B1 B2]|[(z & B1 & B2)|(B1 & B2 & B3)]].
    + exists (dput n (PDict [(dotted (m :: r), x)]) res). split.
      * split; [apply dput_NoDup; exact R1|]. split; [apply dput_other_keys; assumption|]. intros k. destruct (String.eqb_spec k n) as [->|K].
        -- rewrite dget_dput_same, rep_same, B1. reflexivity.
        -- rewrite (dget_dput_other _ res (fun E => K (eq_sym E))), (@rep_other k l n (m :: r) x K). apply R3.
      * intros d. cbn [split_loop]. rewrite (@partition_dotted n m r HNn), R3, B2. reflexivity.
    + exfalso. apply (NN [] z); [rewrite B1; left; reflexivity|reflexivity].
    + exists (dput n (as_dict (below n l ++ [(m :: r, x)])) res). split.
      * split; [apply dput_NoDup; exact R1|]. split; [apply dput_other_keys; assumption|]. intros k. destruct (String.eqb_spec k n) as [->|K].
        -- rewrite dget_dput_same, rep_same. destruct (below n l) as [|[[|a b] y] [|c l']]; try reflexivity; contradiction.
        -- rewrite (dget_dput_other _ res (fun E => K (eq_sym E))), (@rep_other k l n (m :: r) x K). apply R3.
      * intros d. cbn [split_loop]. rewrite (@partition_dotted n m r HNn), R3, B3. unfold as_dict. rewrite (@dput_fresh (dotted (m :: r))), map_app; [reflexivity|].
        rewrite map_map. cbn [fst]. intros Hi. apply in_map_iff in Hi as ([q y] & E & Hq). cbn [fst] in E. apply below_in in Hq.
        destruct (proj1 HL _ _ Hq) as (_ & HQ & _). assert (q <> []) as Q; [intros ->; apply (NN [] y); [apply below_in; exact Hq|reflexivity]|].
        apply dotted_inj in E; [|exact (Forall_inv_tail HQ)|exact (Forall_inv_tail HN)|exact Q|discriminate]. subst q. apply (changes_app_last HO Hq), comparable_refl.
Qed.
Lemma split_reps l2 : forall l1 res, changes_ok (l1 ++ l2) -> reps res l1 ->
  exists res', split_loop res (map (fun c => (dotted (fst c), snd c)) l2) = COk res' /\ reps res' (l1 ++ l2).
Proof.
  induction l2 as [|[p x] l2 IH]; intros l1 res HO HR; [exists res; rewrite app_nil_r; split; [reflexivity|exact HR]|].
  change (l1 ++ (p, x) :: l2) with (l1 ++ [(p, x)] ++ l2) in HO |- *. rewrite app_assoc in HO |- *.
  assert (changes_ok (l1 ++ [(p, x)])) as HO1.
  { clear - HO. destruct HO as [H1 H2]. split; [intros q y Hq; apply H1; apply in_or_app; auto|]. revert H2. generalize (l1 ++ [(p, x)]). intros l H2.
    induction l as [|a l IH]; [constructor|]. cbn in H2. inversion H2 as [|? ? H3 H4]; subst. constructor; [|exact (IH H4)]. apply Forall_app in H3. apply H3. }
  destruct (split_step HO1 HR) as (res1 & HR1 & E1). destruct (IH _ _ HO HR1) as (res' & E2 & HR'). exists res'. split; [|exact HR'].
  cbn [map fst snd]. rewrite E1. exact E2.
Qed.
Lemma split_changes l : changes_ok l -> exists local, split_dict_keys (map (fun c => (dotted (fst c), snd c)) l) = COk local /\ undash_keys local = local /\ reps local l.
Proof.
  intros H. destruct (@split_reps l [] [] H) as (local & E & HR).
  - split; [constructor|]. split; [constructor|]. reflexivity.
  - exists local. split; [exact E|]. split; [|exact HR]. destruct HR as (R1 & R2 & _). apply undash_keys_id; [exact R1|].
    rewrite Forall_map in R2. rewrite Forall_forall in *. intros kv Hk. apply undash_name, R2. exact Hk.
Qed.

(** *** the fields of a class *)
Lemma dpop_in n d k : In k (map fst (dpop n d)) -> In k (map fst d).
Proof. induction d as [|[k' v] d IH]; cbn [dpop]; [auto|]. destruct (String.eqb n k'); cbn; [auto|]. intros [H|H]; auto. Qed.
Lemma dpop_NoDup n d : NoDup (map fst d) -> NoDup (map fst (dpop n d)).
Proof.
  induction d as [|[k v] d IH]; cbn [dpop]; [auto|]. intros N. cbn in N. apply NoDup_cons_iff in N as [N1 N2]. destruct (String.eqb n k); [exact N2|].
  cbn. constructor; [|exact (IH N2)]. intros H. apply N1. exact (dpop_in H).
Qed.
Section Fields.
  Variable rec : pv -> pv -> ty -> cres pv.
  Definition field_result (old local : list (string * pv)) (f : string * ty * option pv) (nv : string * pv) : Prop :=
    fst nv = f_name f /\ exists v, dget (f_name f) old = Some v /\
      match dget (f_name f) local with Some o => rec v o (f_type f) = COk (snd nv) | None => snd nv = v end.
  Lemma dpop_none k d : dget k d = None -> forall n, dget n (dpop k d) = dget n d.
  Proof.
    induction d as [|[k' v] d IH]; cbn; [reflexivity|]. destruct (String.eqb_spec k k') as [->|N]; [discriminate|]. intros H n. cbn. rewrite (IH H). reflexivity.
  Qed.
  Lemma field_result_pop old local n fs kw : ~ In n (map f_name fs) -> Forall2 (field_result old (dpop n local)) fs kw -> Forall2 (field_result old local) fs kw.
  Proof.
    intros N H. induction H as [|f nv fs kw (F1 & v & F2 & F3) H IH]; constructor; [|apply IH; intros C; apply N; right; exact C].
    split; [exact F1|]. exists v. split; [exact F2|]. rewrite dget_dpop_other in F3; [exact F3|]. intros E. apply N. left. congruence.
  Qed.
  Lemma fields_ok old fs : forall local kw rest, NoDup (map f_name fs) -> NoDup (map fst local) -> fields rec old local fs = COk (kw, rest) ->
    Forall2 (field_result old local) fs kw /\ (forall k, In k (map fst local) -> In k (map f_name fs) \/ In k (map fst rest)).
  Proof.
    induction fs as [|[[n t] df] fs IH]; intros local kw rest N1 N2 E; cbn [fields] in E.
    - injection E as <- <-. split; [constructor|]. auto.
    - cbn in N1. apply NoDup_cons_iff in N1 as [N1 N1'].
      destruct (dget n old) as [v|] eqn:EV; [|discriminate]. destruct (dget n local) as [o|] eqn:EL.
      + destruct (rec v o t) as [v'| |] eqn:ER; cbn [cbind] in E; try discriminate. destruct (fields rec old (dpop n local) fs) as [[kw' rest']| |] eqn:EF; cbn [cbind] in E; try discriminate.
        injection E as <- <-. apply IH in EF as [F1 F2]; [|exact N1'|].
        * split.
          -- constructor; [|exact (field_result_pop N1 F1)]. split; [reflexivity|]. exists v. split; [exact EV|]. cbn [f_name fst]. rewrite EL. exact ER.
          -- intros k Hk. destruct (String.eqb_spec k n) as [->|K]; [left; left; reflexivity|]. destruct (F2 k) as [H|H]; [|left; right; exact H|right; exact H].
             destruct (dget k local) as [w|] eqn:EK; [|apply dget_none in EK; contradiction].
             destruct (dget k (dpop n local)) as [w'|] eqn:EK'; [apply dget_in in EK'; apply in_map_iff; exists (k, w'); auto|].
             rewrite dget_dpop_other in EK'; [congruence|]. intros E; apply K; congruence.
        * apply dpop_NoDup. exact N2.
      + destruct (fields rec old local fs) as [[kw' rest']| |] eqn:EF; cbn [cbind] in E; try discriminate. injection E as <- <-.
        apply IH in EF as [F1 F2]; [|exact N1'|exact N2]. split.
        * constructor; [|exact F1]. split; [reflexivity|]. exists v. split; [exact EV|]. cbn [f_name fst]. rewrite EL. reflexivity.
        * intros k Hk. destruct (F2 k Hk) as [H|H]; [left; right; exact H|right; exact H].
  Qed.
  Lemma fields_build old fs : forall local kw, NoDup (map f_name fs) -> NoDup (map fst local) -> Forall2 (field_result old local) fs kw ->
    exists rest, fields rec old local fs = COk (kw, rest).
  Proof.
    induction fs as [|[[n t] df] fs IH]; intros local kw N1 N2 F.
    - inversion F; subst. exists local. reflexivity.
    - inversion F as [|? [m v'] ? kw' F1 F2]; subst. clear F. destruct F1 as (E & v & E1 & E2). cbn [f_name f_type fst snd] in *. subst m. apply NoDup_cons_iff in N1 as [N1 N1'].
      cbn [fields]. rewrite E1. destruct (dget n local) as [o|] eqn:EL.
      + rewrite E2. cbn [cbind]. destruct (IH (dpop n local) kw' N1') as (rest & E3).
        * apply dpop_NoDup. exact N2.
        * clear - F2 N1. induction F2 as [|f nv fs kw (F1 & w & F3 & F4) F2 IH]; constructor; [|apply IH; intros C; apply N1; right; exact C].
          split; [exact F1|]. exists w. split; [exact F3|]. rewrite dget_dpop_other; [exact F4|]. intros E. apply N1. left. symmetry. exact E.
        * rewrite E3. eexists. reflexivity.
      + subst v'. destruct (IH local kw' N1' N2 F2) as (rest & E3). rewrite E3. eexists. reflexivity.
  Qed.
End Fields.
