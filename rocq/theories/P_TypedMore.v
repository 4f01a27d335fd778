(** C53, C54: more on reading typed data -- literals, sets, list arguments, and the check of imported classes. *)
From Coq Require Import String Ascii QArith.
From Verif Require Import Base Typed TypedSpec TypedProofs TypedCallProofs.
Local Close Scope Q_scope.
Local Close Scope Z_scope.
Local Open Scope string_scope.
Local Open Scope list_scope.
Local Open Scope nat_scope.

(** ** Literal *)
(** what can be written in Literal[...] (bytes and enums are not modelled) *)
Definition lit (v : pv) : Prop := match v with PNone | PBool _ | PInt _ | PStr _ => True | _ => False end.
Definition b2z (b : bool) : Z := if b then 1%Z else 0%Z.
(** equality as Python has it: True is 1, 2.0 is 2 *)
Definition same_literal (r w : pv) : Prop :=
  match r, w with
  | PNone, PNone => True
  | PStr s, PStr t => s = t
  | PInt z, PInt y => z = y
  | PBool b, PBool c => b = c
  | PInt z, PBool b | PBool b, PInt z => z = b2z b
  | PFloat q, PInt z => (q == inject_Z z)%Q
  | PFloat q, PBool b => (q == inject_Z (b2z b))%Q
  | _, _ => False
  end.
Lemma Qeq_inject (a b : Z) : Qeq_bool (inject_Z a) (inject_Z b) = true <-> a = b.
Proof. rewrite Qeq_bool_iff. unfold Qeq, inject_Z. cbn. rewrite !Z.mul_1_r. reflexivity. Qed.
Lemma num_bool (b : bool) : (if b then 1%Q else 0%Q) = inject_Z (b2z b).
Proof. destruct b; reflexivity. Qed.
Lemma pyeq_lit r w : lit w -> pyeq r w = true <-> same_literal r w.
Proof.
  destruct w as [|b|z|q|s|l|l|l|d|c f|s|n]; try contradiction; intros _;
    destruct r as [|b'|z'|q'|s'|l'|l'|l'|d'|c' f'|s'|n']; cbn [pyeq num same_literal]; rewrite ?num_bool;
    try (split; [discriminate|contradiction]); try tauto.
  - rewrite Qeq_inject. destruct b, b'; cbn; split; congruence.
  - rewrite Qeq_inject. reflexivity.
  - apply Qeq_bool_iff.
  - rewrite Qeq_inject. split; intros; symmetry; assumption.
  - rewrite Qeq_inject. reflexivity.
  - apply Qeq_bool_iff.
  - apply String.eqb_eq.
Qed.
(** a Literal takes exactly the values that are equal to one of its own, and leaves them as they are *)
Theorem C53_literal accepts strict imports inst vs r v : Forall lit vs ->
  raw_to_typed accepts strict imports inst (Some r) (TLit vs) = COk v <-> v = r /\ exists w, In w vs /\ same_literal r w.
Proof.
  intros HL. cbn [raw_to_typed]. rewrite Forall_forall in HL. destruct (existsb (pyeq r) vs) eqn:E.
  - apply existsb_exists in E. destruct E as (w & HI & HE). apply (pyeq_lit r (HL w HI)) in HE. split; [intros H; inversion H; subst; eauto|intros (-> & _); reflexivity].
  - split; [discriminate|]. intros (-> & w & HI & HE). apply (pyeq_lit r (HL w HI)) in HE. exfalso.
    assert (X : existsb (pyeq r) vs = true) by (apply existsb_exists; eauto). congruence.
Qed.
Print Assumptions C53_literal.
Example C53_literal_nonvacuous : Forall lit [PStr "train"; PInt 1; PNone] /\
  raw_to_typed (fun _ _ => true) true false (fun _ _ => CJson) (Some (PStr "train")) (TLit [PStr "train"; PInt 1; PNone]) = COk (PStr "train") /\
  raw_to_typed (fun _ _ => true) true false (fun _ _ => CJson) (Some (PStr "val")) (TLit [PStr "train"; PInt 1; PNone]) = CJson.
Proof. split; [repeat (apply Forall_cons || apply Forall_nil); exact I|]. split; reflexivity. Qed.

(** a set of lists (or dictionaries, sets) is not a JsonValueError but a TypeError, so that a Union does not try its next alternative *)
Theorem C53_set_refuted accepts strict imports inst l :
  raw_to_typed accepts strict imports inst (Some (PList [PList l])) (TSet TRawList) = CErr TypeError /\
  raw_to_typed accepts strict imports inst (Some (PList [PList l])) (TUnion [TSet TRawList; TList TRawList]) = CErr TypeError.
Proof. split; reflexivity. Qed.
Print Assumptions C53_set_refuted.

(** ** Arguments given as a list *)
(** the parameters of the function: named ones that can be given by position, then maybe a star parameter *)
Definition by_position (p : param) : Prop := p_kind p = PosOrKw \/ p_kind p = PosOnly.
Definition starred (star : option param) : list param := match star with Some p => [p] | None => [] end.
(** the argument offered to each parameter: to the first parameter the LAST argument, to the second the one before it, and so on *)
Definition offered (ps : list param) (l : list pv) : list (param * option pv) :=
  combine ps (map Some (rev l) ++ repeat None (length ps)).

Section ListArgs.
  Variable accepts : string -> list (string * pv) -> bool.
  Variables (strict imports : bool).
  Variable inst : list (string * pv) -> ty -> cres pv.
  Notation conv v t := (raw_to_typed accepts strict imports inst (Some v) t).

  (** what a parameter gets for the argument it is offered; without one its default, unless it is positional-only *)
  Definition gets (po : param * option pv) (a : pv) : Prop :=
    match snd po with
    | Some v => conv v (annotation (fst po)) = COk a
    | None => p_kind (fst po) = PosOrKw /\ exists d, p_default (fst po) = Some d /\ conv d (annotation (fst po)) = COk a
    end.

  Lemma combine_short {X Y} (ps : list X) (a b : list Y) : length ps <= length a -> combine ps (a ++ b) = combine ps a.
  Proof. revert a. induction ps as [|p ps IH]; intros [|x a] H; cbn in *; try reflexivity; [lia|]. f_equal. apply IH. lia. Qed.
  Lemma combine_none (ps : list param) (u : list pv) : combine ps (map Some u ++ repeat None (S (length ps))) = combine ps (map Some u ++ repeat None (length ps)).
  Proof.
    replace (S (length ps)) with (length ps + 1) by lia. rewrite repeat_app, app_assoc. apply combine_short. rewrite app_length, repeat_length. lia.
  Qed.

  Lemma star_args t u args args' :
    ((fix go (l args : list pv) : cres (list pv) :=
        match l with [] => COk args | v :: l' => cbind (conv v t) (fun x => go l' (args ++ [x])) end) u args) = COk args' <->
    exists extra, args' = args ++ extra /\ Forall2 (fun v a => conv v t = COk a) u extra.
  Proof.
    revert args. induction u as [|v u IH]; intros args.
    - split; [intros H; inversion H; subst; exists []; split; [symmetry; apply app_nil_r|constructor]|].
      intros (extra & -> & F). inversion F; subst. rewrite app_nil_r. reflexivity.
    - destruct (conv v t) as [x| |] eqn:E; cbn [cbind].
      + rewrite IH. split.
        * intros (extra & -> & F). exists (x :: extra). rewrite <- app_assoc. split; [reflexivity|constructor; assumption].
        * intros (extra & -> & F). inversion F as [|? y ? r' E' F']; subst. rewrite E in E'. inversion E'; subst. exists r'. rewrite <- app_assoc. split; [reflexivity|assumption].
      + split; [discriminate|]. intros (extra & -> & F). inversion F; subst. congruence.
      + split; [discriminate|]. intros (extra & -> & F). inversion F; subst. congruence.
  Qed.

  Definition rest_ok (star : option param) (rest : list pv) (extra : list pv) : Prop :=
    match star with
    | Some p => Forall2 (fun v a => conv v (annotation p) = COk a) (rev rest) extra
    | None => extra = [] /\ (strict = true -> rest = [])
    end.

  Lemma bind_list_iff star : match star with Some p => p_kind p = VarPos | None => True end -> forall ps, Forall by_position ps -> forall u args res,
    bind_list accepts strict imports inst (ps ++ starred star) u args = COk res <->
    exists pos extra, res = args ++ pos ++ extra /\ Forall2 gets (combine ps (map Some u ++ repeat None (length ps))) pos /\ rest_ok star (skipn (length ps) u) extra.
  Proof.
    intros HST. induction ps as [|p ps IH]; intros HP u args res.
    - cbn [app length combine skipn]. destruct star as [p|]; cbn [starred bind_list rest_ok].
      + rewrite HST. match goal with |- cbind ?g _ = _ <-> _ => destruct g as [x| |] eqn:E end; cbn [cbind].
        * apply star_args in E. destruct E as (extra & -> & F). cbn [bind_list length Nat.eqb negb]. rewrite andb_false_r. split.
          -- intros H. inversion H; subst. exists [], extra. split; [reflexivity|]. split; [constructor|exact F].
          -- intros (pos & e' & -> & F1 & F2). inversion F1; subst. cbn [app]. f_equal. f_equal. clear - F F2. revert e' F2. induction F; intros e' F2; inversion F2; subst; [reflexivity|]. f_equal; [congruence|auto].
        * split; [discriminate|]. intros (pos & e' & -> & F1 & F2). inversion F1; subst. pose proof (proj2 (star_args (annotation p) (rev u) args (args ++ e')) (ex_intro _ e' (conj eq_refl F2))) as X. rewrite X in E. discriminate.
        * split; [discriminate|]. intros (pos & e' & -> & F1 & F2). inversion F1; subst. pose proof (proj2 (star_args (annotation p) (rev u) args (args ++ e')) (ex_intro _ e' (conj eq_refl F2))) as X. rewrite X in E. discriminate.
      + destruct (strict && negb (length u =? 0)) eqn:E.
        * split; [discriminate|]. intros (pos & e' & -> & F1 & -> & H). apply andb_true_iff in E. destruct E as [E1 E2]. rewrite (H E1) in E2. discriminate.
        * split.
          -- intros H. inversion H; subst. exists [], []. rewrite !app_nil_r. split; [reflexivity|]. split; [constructor|]. split; [reflexivity|]. intros ->. destruct u; [reflexivity|discriminate].
          -- intros (pos & e' & -> & F1 & -> & H). inversion F1; subst. rewrite !app_nil_r. reflexivity.
    - cbn [app length]. pose proof (Forall_inv HP) as HK. specialize (IH (Forall_inv_tail HP)).
      assert (STEP : forall v u0 g, (bind_list accepts strict imports inst (p :: ps ++ starred star) u args =
                 cbind (conv v (annotation p)) (fun x => bind_list accepts strict imports inst (ps ++ starred star) u0 (args ++ [x]))) ->
                 combine (p :: ps) (map Some u ++ repeat None (S (length ps))) = (p, g) :: combine ps (map Some u0 ++ repeat None (length ps)) ->
                 (forall a, gets (p, g) a <-> conv v (annotation p) = COk a) -> skipn (S (length ps)) u = skipn (length ps) u0 ->
                 (bind_list accepts strict imports inst (p :: ps ++ starred star) u args = COk res <->
                  exists pos extra, res = args ++ pos ++ extra /\ Forall2 gets (combine (p :: ps) (map Some u ++ repeat None (S (length ps)))) pos /\ rest_ok star (skipn (S (length ps)) u) extra)).
      { intros v u0 g -> -> HG ->. destruct (conv v (annotation p)) as [x| |] eqn:E; cbn [cbind].
        - rewrite IH. split.
          + intros (pos & extra & -> & F & R). exists (x :: pos), extra. rewrite <- app_assoc. split; [reflexivity|]. split; [|exact R]. constructor; [apply HG; reflexivity|exact F].
          + intros (pos & extra & -> & F & R). inversion F as [|? a ? pos' G F']; subst. apply HG in G. inversion G; subst. exists pos', extra. rewrite <- app_assoc. split; [reflexivity|]. split; assumption.
        - split; [discriminate|]. intros (pos & extra & -> & F & R). inversion F as [|? a ? pos' G F']; subst. apply HG in G. discriminate.
        - split; [discriminate|]. intros (pos & extra & -> & F & R). inversion F as [|? a ? pos' G F']; subst. apply HG in G. discriminate. }
      destruct u as [|v u].
      + assert (NONE : (forall x, bind_list accepts strict imports inst (p :: ps ++ starred star) [] args <> COk x) -> (forall a, ~ gets (p, None) a) ->
          (bind_list accepts strict imports inst (p :: ps ++ starred star) [] args = COk res <->
                  exists pos extra, res = args ++ pos ++ extra /\ Forall2 gets (combine (p :: ps) (map Some [] ++ repeat None (S (length ps)))) pos /\ rest_ok star (skipn (S (length ps)) []) extra)).
        { intros HR HN. split; [intros H; exfalso; exact (HR _ H)|].
          intros (pos & extra & _ & F & _). exfalso. cbn in F. inversion F as [|? a ? pos' G F']; subst. exact (HN _ G). }
        destruct (p_default p) as [dv|] eqn:ED; destruct HK as [HK|HK].
        * apply (STEP dv [] None); [cbn [bind_list]; rewrite HK, ED; reflexivity|reflexivity| |reflexivity || (cbn; destruct (length ps); reflexivity)].
          { intros a. unfold gets. cbn [fst snd]. split; [intros (_ & d & D1 & D2); congruence|]. intros H. split; [exact HK|]. exists dv. auto. }
        * apply NONE; [intros x; cbn [bind_list]; rewrite HK, ED; discriminate|]. intros a (H & _). cbn [fst] in H. congruence.
        * apply NONE; [intros x; cbn [bind_list]; rewrite HK, ED; discriminate|]. intros a (_ & d & D & _). cbn [fst] in D. congruence.
        * apply NONE; [intros x; cbn [bind_list]; rewrite HK, ED; discriminate|]. intros a (_ & d & D & _). cbn [fst] in D. congruence.
      + apply (STEP v u (Some v)); [cbn [bind_list]; destruct HK as [-> | ->]; reflexivity| |intros a; reflexivity|reflexivity].
        cbn [map app combine]. f_equal. rewrite combine_none. reflexivity.
  Qed.

  (** A function called with a list: what it gets, exactly -- the arguments in reverse order, converted, then defaults; a star
      parameter gets the first arguments, in order; if strict all arguments are used. *)
  Theorem C54_list_arguments fn ps star l r : ob_params fn = ps ++ starred star -> Forall by_position ps ->
    match star with Some p => p_kind p = VarPos | None => True end ->
    safe_call_function accepts strict imports inst (PList l) fn = COk r <->
    exists pos extra, ob_call fn (pos ++ extra) [] = COk r /\ Forall2 gets (offered ps l) pos /\
      match star with
      | Some p => Forall2 (fun v a => conv v (annotation p) = COk a) (firstn (length l - length ps) l) extra
      | None => extra = [] /\ (strict = true -> length l <= length ps)
      end.
  Proof.
    intros HPS HP HS. cbn [safe_call_function]. rewrite HPS.
    assert (R : forall extra, rest_ok star (skipn (length ps) (rev l)) extra <-> match star with
      | Some p => Forall2 (fun v a => conv v (annotation p) = COk a) (firstn (length l - length ps) l) extra
      | None => extra = [] /\ (strict = true -> length l <= length ps) end).
    { intros extra. unfold rest_ok. destruct star.
      - rewrite skipn_rev, rev_involutive. reflexivity.
      - assert (Q : skipn (length ps) (rev l) = [] <-> length l <= length ps).
        { split; [|intros H; apply skipn_all2; rewrite rev_length; exact H]. intros H. apply (f_equal (@length _)) in H. rewrite skipn_length, rev_length in H. cbn in H. lia. }
        tauto. }
    split.
    - destruct (bind_list _ _ _ _ _ _ _) as [args| |] eqn:E; cbn [cbind]; try discriminate. intros H. apply (@bind_list_iff star HS ps HP) in E.
      destruct E as (pos & extra & -> & F & RR). exists pos, extra. split; [exact H|]. split; [exact F|apply R; exact RR].
    - intros (pos & extra & H & F & RR). apply R in RR.
      rewrite (proj2 (@bind_list_iff star HS ps HP (rev l) [] (pos ++ extra)) (ex_intro _ pos (ex_intro _ extra (conj eq_refl (conj F RR))))). exact H.
  Qed.
End ListArgs.
Print Assumptions C54_list_arguments.
Example C54_list_nonvacuous :
  let fn := mkObj false true [mkParam "a" PosOrKw (Some TInt) None; mkParam "b" PosOrKw None (Some (PStr "d"))] (fun a _ => COk (PTup a)) in
  Forall by_position [mkParam "a" PosOrKw (Some TInt) None; mkParam "b" PosOrKw None (Some (PStr "d"))] /\
  safe_call_function (fun _ _ => true) true true (fun _ _ => CJson) (PList [PInt 1]) fn = COk (PTup [PInt 1; PStr "d"]) /\
  safe_call_function (fun _ _ => true) true true (fun _ _ => CJson) (PList [PStr "x"; PInt 2]) fn = COk (PTup [PInt 2; PStr "x"]) /\
  safe_call_function (fun _ _ => true) true true (fun _ _ => CJson) (PList [PInt 1; PStr "x"; PInt 2]) fn = CErr ValueError.
Proof. split; [repeat (apply Forall_cons || apply Forall_nil); left; reflexivity|]. repeat split; reflexivity. Qed.

(** ** The class that is named in the data *)
Section Checked.
  Variable accepts : string -> list (string * pv) -> bool.
  Variable import : string -> option (string -> option pyobj).
  Variable value_of : pyobj -> pv.
  Variable type_of : pv -> pyobj.
  Variable of_type : ty -> option pyobj.
  Variable issub : pyobj -> cref -> bool.
  Variable meta : nat -> bool.
  Variable strict : bool.

  (** container types, classes of classes, callables, and unions of such: the classes one of which must be a base *)
  Fixpoint bases (t : ty) : option (list cref) :=
    match t with
    | TUnion ts => fold_right (fun t o => match bases t, o with Some a, Some b => Some (a ++ b) | _, _ => None end) (Some []) ts
    | TList _ => Some [KList]
    | TSet _ => Some [KSet]
    | TTupOf _ | TTup _ => Some [KTuple]
    | TDict _ => Some [KDict]
    | TCls n => if meta n then Some [KUser n] else None
    | _ => None
    end.
  Lemma ty_bases : forall t ks x, bases t = Some ks -> check_instance_type issub meta x t = true <-> exists k, In k ks /\ issub x k = true.
  Proof.
    fix IH 1. intros t ks x. destruct t; cbn [bases check_instance_type]; try discriminate;
      try (intros H; inversion H; subst; split; [intros E; eexists; split; [left; reflexivity|exact E]|intros (k & [<-|[]] & E); exact E]).
    - revert ks. induction ts as [|t ts IHts]; intros ks; cbn [fold_right existsb].
      + intros H. inversion H. split; [discriminate|]. intros (k & [] & _).
      + destruct (bases t) as [a|] eqn:EA; [|discriminate]. destruct (fold_right _ _ ts) as [b|] eqn:EB; [|discriminate]. intros H. inversion H; subst.
        rewrite orb_true_iff, (@IH t a x EA), (IHts b eq_refl). split.
        * intros [(k & H1 & H2)|(k & H1 & H2)]; exists k; (split; [apply in_or_app; auto|exact H2]).
        * intros (k & H1 & H2). apply in_app_or in H1. destruct H1; [left|right]; eauto.
    - destruct (meta n) eqn:EM; [|discriminate]. intros H. inversion H; subst. cbn [negb orb]. split; [intros E; eexists; split; [left; reflexivity|exact E]|intros (k & [<-|[]] & E); exact E].
  Qed.

  (** where a list, set, tuple, dictionary (or one of several) is expected, the class named in the data is a subclass of one of
      them, and so is what its call returned *)
  Theorem C54_class_checked fuel d t ks r : bases t = Some ks ->
    (exists s, dget "__class__" d = Some (PStr s)) -> (exists s, dget "__module__" d = Some (PStr s)) ->
    raw_to_instance accepts import value_of type_of of_type issub meta strict fuel d t = COk r ->
    exists k, In k ks /\ issub (type_of r) k = true.
  Proof.
    intros HB (o & HO) (m & HM) E. destruct fuel as [|fuel]; [discriminate|]. cbn [raw_to_instance] in E.
    assert (X : dget "__class__" (dpop "__module__" d) = Some (PStr o)).
    { rewrite dget_dpop_other by discriminate. exact HO. }
    assert (E' : cbind (find_object import m o) (fun x => if ob_class x && check_instance_type issub meta x t
        then call_object accepts type_of issub meta strict (raw_to_instance accepts import value_of type_of of_type issub meta strict fuel) t x (dpop "__class__" (dpop "__module__" d)) else CJson) = COk r).
    { unfold has in E. rewrite X, HM in E. cbn [as_str] in E. destruct t; try exact E; discriminate. }
    clear E. destruct (find_object import m o) as [x| |]; cbn [cbind] in E'; try discriminate. destruct (ob_class x) eqn:EC; cbn [andb] in E'; [|discriminate].
    destruct (check_instance_type issub meta x t) eqn:ET; [|discriminate]. unfold call_object in E'. rewrite EC in E'. cbn [negb orb] in E'.
    destruct (safe_call_function _ _ _ _ _ _) as [r'| |]; cbn [cbind] in E'; try discriminate. destruct (check_instance_type issub meta (type_of r') t) eqn:ER; [|discriminate].
    inversion E'; subst r'. apply (proj1 (@ty_bases t ks (type_of r) HB)). exact ER.
  Qed.
End Checked.
Print Assumptions C54_class_checked.
Example C54_class_checked_nonvacuous :
  let mylist := mkObj true true [] (fun _ _ => COk (PList [])) in let other := mkObj true true [] (fun _ _ => COk PNone) in
  let import := fun m => if String.eqb m "m" then Some (fun o => if String.eqb o "MyList" then Some mylist else Some other) else None in
  let type_of := fun v => match v with PList _ => mylist | _ => other end in
  let issub := fun (x : pyobj) k => match k, ob_call x [] [] with KList, COk (PList _) => true | _, _ => false end in
  let run := fun o => raw_to_instance (fun _ _ => true) import (fun _ => PObj 0) type_of (fun _ => None) issub (fun _ => false) true 5 [("__module__", PStr "m"); ("__class__", PStr o)] (TUnion [TList TInt; TDict TInt]) in
  bases (fun _ => false) (TUnion [TList TInt; TDict TInt]) = Some [KList; KDict] /\ run "MyList" = COk (PList []) /\ run "Other" = CJson.
Proof. repeat split; reflexivity. Qed.
