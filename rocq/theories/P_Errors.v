(** C60: errors in samples are reported. *)
From Coq Require Import String Ascii.
From Verif Require Import Base Files FilesProofs Tar TarSpec TarProofs P_Tar P_Files Split Errors.
Local Open Scope string_scope.
Local Open Scope list_scope.
Local Open Scope nat_scope.

(** the samples that can be loaded, in order, and the failures, in order (a skipped sample is neither) *)
Fixpoint loadable {A B} (load : A -> pexc + B) (l : list A) : list B :=
  match l with [] => [] | x :: l' => match load x with inr y => y :: loadable load l' | inl _ => loadable load l' end end.
Definition failure {A B} (load : A -> pexc + B) (x : A) (e : pexc) : Prop := load x = inl e /\ e <> PSkip.
Inductive failures {A B} (load : A -> pexc + B) : list A -> list (A * pexc) -> Prop :=
| fl_nil : failures load [] []
| fl_bad x l e fs : failure load x e -> failures load l fs -> failures load (x :: l) ((x, e) :: fs)
| fl_fine x l fs : (forall e, ~ failure load x e) -> failures load l fs -> failures load (x :: l) fs.

Lemma user_case (e : pexc) : is_system e = false -> e <> PSkip -> exists n, e = PUser n.
Proof. destruct e; cbn; try discriminate; [contradiction | eauto]. Qed.

Section Tuples.
  Context {A B : Type}.
  Variables (load : A -> pexc + B) (as_arg : A -> arg).
  Hypothesis Tup : forall x, exists l, as_arg x = PyTuple l.

  Lemma map_load_user h x l n : load x = inl (PUser n) ->
    map_load load as_arg h (x :: l) =
      match h (PUser n) None with
      | Some e' => ([], [(PUser n, None)], Some e')
      | None => let '(ys, cs, e2) := map_load load as_arg h l in (ys, (PUser n, None) :: cs, e2)
      end.
  Proof.
    intros H. cbn [map_load]. rewrite H. cbn [is_system]. unfold error_handler. destruct (Tup x) as [k ->]. cbn.
    destruct (h (PUser n) None); [reflexivity|]. destruct (map_load load as_arg h l) as [[? ?] ?]. reflexivity.
  Qed.

  (** *** a handler that returns *)
  Lemma map_load_returning h l : (forall e k, h e k = None) -> (forall x e, In x l -> load x = inl e -> is_system e = false) ->
    exists fs, failures load l fs /\ map_load load as_arg h l = (loadable load l, map (fun f => (snd f, None)) fs, None).
  Proof.
    intros Hh. induction l as [|x l IH]; intros Hs.
    - exists []. split; [constructor | reflexivity].
    - destruct IH as (fs & F & E); [intros y e I; apply Hs; now right|].
      destruct (load x) as [e|y] eqn:Ex.
      + pose proof (Hs x e (or_introl eq_refl) Ex) as Se. destruct e as [n| | |n]; try discriminate.
        * exists fs. split; [|cbn; rewrite Ex; exact E]. constructor; [|exact F]. intros e [Q1 Q2]. congruence.
        * exists ((x, PUser n) :: fs). split; [constructor; [split; [exact Ex | discriminate] | exact F]|].
          rewrite (map_load_user h l Ex), Hh, E. cbn [loadable map snd]. now rewrite Ex.
      + exists fs. split; [constructor; [|exact F]; intros e [Q1 Q2]; congruence|]. cbn [map_load loadable]. rewrite Ex, E. reflexivity.
  Qed.
End Tuples.

(** With a handler that returns, all samples that can be loaded are served, in order, and the handler is called once per failing sample, in
    order, with the exception that loading it raised. *)
Theorem C60_every_failure_reported {Dat B} (load : rsample Dat -> pexc + B) h l :
  (forall e k, h e k = None) -> (forall x e, In x l -> load x = inl e -> is_system e = false) ->
  exists fs outs calls, failures load l fs /\ map_load load wds_arg h l = (outs, calls, None) /\
    outs = loadable load l /\ map fst calls = map snd fs.
Proof.
  intros Hh Hs. destruct (@map_load_returning _ _ load wds_arg ltac:(intros x; eexists; reflexivity) h l Hh Hs) as (fs & F & E).
  exists fs. eexists _, _. split; [exact F|]. split; [exact E|]. split; [reflexivity|]. rewrite map_map. reflexivity.
Qed.
Print Assumptions C60_every_failure_reported.

(** ... but it is never told which sample failed: for every dataset, joined or not, and every failure, the key it gets is None (the
    documentation says: Args: (exception, key)). *)
Theorem C60_key_unknown_refuted : forall Dat B,
  (forall (load : rsample Dat -> pexc + B) h l outs calls e, map_load load wds_arg h l = (outs, calls, e) -> Forall (fun c => snd c = None) calls) /\
  (forall (load : list (option (rsample Dat)) -> pexc + B) h l outs calls e, map_load load joined_arg h l = (outs, calls, e) -> Forall (fun c => snd c = None) calls).
Proof.
  intros Dat B.
  assert (G : forall A (load : A -> pexc + B) as_arg, (forall x, exists l, as_arg x = PyTuple l) ->
    forall h l outs calls e, map_load load as_arg h l = (outs, calls, e) -> Forall (fun c => snd c = None) calls).
  { intros A load as_arg Tup h. induction l as [|x l IH]; intros outs calls e H; [injection H as <- <- <-; constructor|].
    destruct (load x) as [e'|y] eqn:Ex.
    - destruct e' as [n| | |n].
      + cbn in H. rewrite Ex in H. injection H as <- <- <-. constructor.
      + cbn in H. rewrite Ex in H. injection H as <- <- <-. constructor.
      + cbn in H. rewrite Ex in H. eauto.
      + rewrite (map_load_user Tup h l Ex) in H. destruct (h (PUser n) None) as [e''|].
        * injection H as <- <- <-. constructor; [reflexivity | constructor].
        * destruct (map_load load as_arg h l) as [[ys cs] e2]. injection H as <- <- <-. constructor; [reflexivity|]. eapply IH. reflexivity.
    - cbn in H. rewrite Ex in H. destruct (map_load load as_arg h l) as [[ys cs] e2]. injection H as <- <- <-. eapply IH. reflexivity. }
  split; intros load; apply G; intros x; eexists; reflexivity.
Qed.
Print Assumptions C60_key_unknown_refuted.

(** With the default handler the samples before the first failing one are served, then the failure is raised. *)
Theorem C60_default_stops {Dat B} (load : rsample Dat -> pexc + B) l x n l' :
  (forall y e, In y l -> ~ failure load y e) -> load x = inl (PUser n) ->
  map_load load wds_arg reraise (l ++ x :: l') = (loadable load l, [(PUser n, None)], Some (PUser n)).
Proof.
  intros Hl Hx. induction l as [|y l IH]; cbn [app loadable].
  - erewrite map_load_user by (eauto; intros z; eexists; reflexivity). reflexivity.
  - cbn [map_load]. destruct (load y) as [e|z] eqn:Ey.
    + destruct e as [k| | |k]; try (exfalso; eapply (Hl y); [now left | split; [exact Ey | discriminate]]).
      apply IH. intros z e I. apply Hl. now right.
    + rewrite IH by (intros w e I; apply Hl; now right). reflexivity.
Qed.
Print Assumptions C60_default_stops.

(** System exceptions (out of memory, import errors, ...) end the iteration with a FatalSampleError, whatever the handler, which is not asked. *)
Theorem C60_system_is_fatal {Dat B} (load : rsample Dat -> pexc + B) h l x e l' :
  (forall k e, h k e = None) -> (forall y e, In y l -> load y = inl e -> is_system e = false) -> load x = inl e -> is_system e = true ->
  exists fs, failures load l fs /\
    map_load load wds_arg h (l ++ x :: l') = (loadable load l, map (fun f => (snd f, None)) fs, Some PFatal).
Proof.
  intros Hh Hs Hx He. induction l as [|y l IH]; cbn [app].
  - exists []. split; [constructor|]. cbn. rewrite Hx. destruct e; cbn in He; try discriminate; reflexivity.
  - destruct IH as (fs & F & E); [intros z e' I; apply Hs; now right|]. destruct (load y) as [e'|z] eqn:Ey.
    + pose proof (Hs y e' (or_introl eq_refl) Ey) as S'. destruct e' as [n| | |n]; try discriminate.
      * exists fs. split; [constructor; [|exact F]; intros e' [Q1 Q2]; congruence|]. cbn [map_load loadable]. rewrite Ey. exact E.
      * exists ((y, PUser n) :: fs). split; [constructor; [split; [exact Ey | discriminate] | exact F]|].
        erewrite map_load_user by (eauto; intros w; eexists; reflexivity). rewrite Hh, E. cbn [loadable map snd]. now rewrite Ey.
    + exists fs. split; [constructor; [|exact F]; intros e' [Q1 Q2]; congruence|]. cbn [map_load loadable]. rewrite Ey, E. reflexivity.
Qed.
Print Assumptions C60_system_is_fatal.

(** ** parts that cannot be read *)
(** The handler is told the sample's key for every part that cannot be read, and the other parts are collected ... *)
Theorem C60_unreadable_parts {Dat} (h : handler) key (l : list (string * (pexc + Dat))) :
  (forall e k, h e k = None) -> (forall x e, In (x, inl e) l -> is_system e = false) ->
  exists d calls, read_parts h key [] l = (d, calls, None) /\
    d = fold_left (fun d p => match snd p with inr v => dict_set (fst p) v d | inl _ => d end) l [] /\
    calls = flat_map (fun p => match snd p with inl e => [(e, Some key)] | inr _ => [] end) l.
Proof.
  intros Hh. generalize (@nil (string * Dat)) as d. induction l as [|[ext [e|v]] l IH]; intros d Hs.
  - eexists _, _. repeat split; reflexivity.
  - cbn [read_parts fold_left flat_map snd fst app]. pose proof (Hs ext e (or_introl eq_refl)) as Se. rewrite Se.
    unfold sample_error_handler. rewrite Se, Hh.
    destruct (IH d) as (d' & cs & -> & -> & ->); [intros x e' I; apply (Hs x); now right|]. eexists _, _. repeat split; reflexivity.
  - cbn [read_parts fold_left flat_map snd fst app]. destruct (IH (dict_set ext v d)) as (d' & cs & -> & -> & ->); [intros x e' I; apply (Hs x); now right|].
    eexists _, _. repeat split; reflexivity.
Qed.
Print Assumptions C60_unreadable_parts.

(** ... so the sample is served without the part: nothing in it tells that a part is missing. *)
Theorem C60_incomplete_sample_refuted : exists (l : list (string * (pexc + nat))) d,
  read_parts note "s.tar/1" [] l = (d, [(PUser 5, Some "s.tar/1")], None) /\ map fst l = ["jpg"; "txt"] /\ map fst d = ["txt"].
Proof. exists [("jpg", inl (PUser 5)); ("txt", inr 7)], [("txt", 7)]. repeat split; reflexivity. Qed.

(** ** the key that is passed on *)
Lemma join_some l : l <> [] -> join_keys (map Some l) = Ok (String.concat "," l).
Proof.
  induction l as [|k l IH]; [contradiction|]. intros _. destruct l as [|k' l]; [reflexivity|].
  change (join_keys (map Some (k :: k' :: l))) with (bind (join_keys (map Some (k' :: l))) (fun r => Ok (k ++ "," ++ r)%string)).
  rewrite IH by discriminate. reflexivity.
Qed.
Lemma seq_ok {A B} (f : A -> result B) (g : A -> B) l : (forall x, In x l -> f x = Ok (g x)) -> sequence (map f l) = Ok (map g l).
Proof.
  induction l as [|x l IH]; intros H; cbn; [reflexivity|]. rewrite H by now left. rewrite IH by (intros y I; apply H; now right). reflexivity.
Qed.

(** Errors for a dictionary or a sample are reported with its key; for a list of dictionaries with keys, or of samples (the batches and packs
    of the wrappers), with all the keys. *)
Theorem C60_key_of :
  (forall k, key_of (One (IDict k)) = Ok k) /\ (forall k, key_of (One (ISample k)) = Ok (Some k)) /\
  (forall k ks, key_of (PyList (map (fun k => IDict (Some k)) (k :: ks))) = Ok (Some (String.concat "," (k :: ks)))) /\
  (forall k ks, key_of (PyList (map ISample (k :: ks))) = Ok (Some (String.concat "," (k :: ks)))).
Proof.
  split; [reflexivity|]. split; [reflexivity|]. split; intros k ks.
  - change (map (fun k => IDict (Some k)) (k :: ks)) with (IDict (Some k) :: map (fun k => IDict (Some k)) ks). unfold key_of.
    change (IDict (Some k) :: map (fun k => IDict (Some k)) ks) with (map (fun k => IDict (Some k)) (k :: ks)). rewrite map_map.
    rewrite (@seq_ok _ _ _ (fun k => Some k)) by reflexivity. unfold bind at 1. rewrite join_some by discriminate. reflexivity.
  - change (map ISample (k :: ks)) with (ISample k :: map ISample ks). unfold key_of.
    change (ISample k :: map ISample ks) with (map ISample (k :: ks)). rewrite map_map.
    rewrite (@seq_ok _ _ _ (fun k => Some k)) by reflexivity. unfold bind at 1. rewrite join_some by discriminate. reflexivity.
Qed.
Print Assumptions C60_key_of.

(** For other lists that are allowed by its type the handler itself fails or loses all keys: a dictionary without a key, an empty list, a first
    entry None, samples and dictionaries mixed. *)
Theorem C60_key_of_refuted :
  key_of (PyList [IDict (Some "a"); IDict None]) = Err TypeError /\ key_of (PyList []) = Err IndexError /\
  key_of (PyList [INone; IDict (Some "a")]) = Ok None /\ key_of (PyList [ISample "a"; IDict (Some "b")]) = Err OtherError.
Proof. repeat split; reflexivity. Qed.

(** ** energon lint *)
Lemma check_shards_spec idx counts : forall ok,
  match check_shards idx counts ok with
  | Ok b => b = true <-> ok = true /\ forall name n, In (name, n) counts -> exists f, idx name = Some f /\ index_len f = n + 1
  | Err _ => exists name n, In (name, n) counts /\ idx name = None
  end.
Proof.
  induction counts as [|[name n] l IH]; intros ok; cbn [check_shards].
  - split; [intros ->; split; [reflexivity | intros ? ? []] | tauto].
  - destruct (idx name) as [f|] eqn:E; [|exists name, n; split; [now left | exact E]].
    specialize (IH (ok && (index_len f =? n + 1))). destruct (check_shards idx l _) as [b|e].
    + rewrite IH, andb_true_iff, Nat.eqb_eq. split.
      * intros [[A B] C]. split; [exact A|]. intros m k [Q | I]; [injection Q as <- <-; eauto | auto].
      * intros [A B]. destruct (B name n (or_introl eq_refl)) as (f' & F1 & F2). repeat split; auto.
        -- congruence.
        -- intros m k I. apply B. now right.
    + destruct IH as (m & k & I & Q). exists m, k. split; [now right | exact Q].
Qed.

(** A prepared shard passes the check of its index. *)
Theorem C60_prepared_index {Dat} (ms : list (member Dat)) : index_len (index_file ms) = count_of ms + 1.
Proof.
  destruct (C17_index_counts_samples ms) as [A B]. unfold index_len, index_file.
  assert (E : forall l, List.length (flat_map pack l) = 8 * List.length l).
  { induction l as [|z l IH]; [reflexivity|]. cbn [flat_map]. rewrite app_length, pack_length, IH. cbn [List.length]. lia. }
  rewrite E, map_length, B, A, Nat.mul_comm, Nat.div_mul by lia. lia.
Qed.
Print Assumptions C60_prepared_index.

Section LintSpec.
  Context {Dat B : Type}.
  Variables (load : rsample Dat -> pexc + B) (part : string -> result (list (rsample Dat))).

  (** how one part goes *)
  Lemma map_load_note l : match map_load load wds_arg note l with
    | (_, calls, None) => (forall x e, In x l -> load x = inl e -> is_system e = false) /\
                          (calls = [] <-> forall x e, In x l -> ~ failure load x e)
    | (_, _, Some _) => exists x e, In x l /\ load x = inl e /\ is_system e = true
    end.
  Proof.
    induction l as [|x l IH]; [cbn; split; [intros ? ? [] | split; [intros _ ? ? [] | reflexivity]]|].
    destruct (load x) as [e|y] eqn:Ex.
    - destruct e as [n| | |n].
      + cbn [map_load]. rewrite Ex. cbn. exists x, (PSystem n). split; [now left | split; [exact Ex | reflexivity]].
      + cbn [map_load]. rewrite Ex. cbn. exists x, PFatal. split; [now left | split; [exact Ex | reflexivity]].
      + cbn [map_load]. rewrite Ex. destruct (map_load load wds_arg note l) as [[ys cs] [e2|]].
        * destruct IH as (z & e & I & Q). exists z, e. split; [now right | exact Q].
        * destruct IH as [C D]. split.
          -- intros z e [<- | I] Hz; [rewrite Ex in Hz; injection Hz as <-; reflexivity | eauto].
          -- rewrite D. split; [intros H z e [<- | I]; [intros [Q1 Q2]; congruence | auto] | intros H z e I; apply H; now right].
      + erewrite map_load_user by (eauto; intros w; eexists; reflexivity). unfold note at 1.
        destruct (map_load load wds_arg note l) as [[ys cs] [e2|]].
        * destruct IH as (z & e & I & Q). exists z, e. split; [now right | exact Q].
        * destruct IH as [C D]. split.
          -- intros z e [<- | I] Hz; [rewrite Ex in Hz; injection Hz as <-; reflexivity | eauto].
          -- split; [discriminate|]. intros H. exfalso. apply (H x (PUser n)); [now left | split; [exact Ex | discriminate]].
    - cbn [map_load]. rewrite Ex. destruct (map_load load wds_arg note l) as [[ys cs] [e2|]].
      + destruct IH as (z & e & I & Q). exists z, e. split; [now right | exact Q].
      + destruct IH as [C D]. split.
        * intros z e [<- | I] Hz; [congruence | eauto].
        * rewrite D. split; [intros H z e [<- | I]; [intros [Q1 Q2]; congruence | auto] | intros H z e I; apply H; now right].
  Qed.

  Lemma lint_parts_spec parallel parts : forall failed ign,
    lint_parts load parallel part parts failed ign = LintPassed <->
    failed = false /\ forall p, In p parts -> exists l, part p = Ok l /\
      (forall x e, In x l -> load x = inl e -> is_system e = false) /\ (parallel = 0 -> forall x e, In x l -> ~ failure load x e).
  Proof.
    induction parts as [|p ps IH]; intros failed ign; cbn [lint_parts].
    - destruct failed.
      + split; [discriminate | intros [H _]; discriminate].
      + split; [|reflexivity]. intros _. split; [reflexivity | intros ? []].
    - destruct (part p) as [l|e] eqn:Ep.
      2:{ split; [discriminate|]. intros [_ H]. destruct (H p (or_introl eq_refl)) as (l & Q & _). congruence. }
      pose proof (map_load_note l) as M. destruct (map_load load wds_arg note l) as [[ys calls] [e|]].
      + split; [discriminate|]. intros [_ H]. destruct (H p (or_introl eq_refl)) as (l' & Q & S & _).
        destruct M as (x & e' & I & Hx & He). rewrite Ep in Q. injection Q as <-. specialize (S x e' I Hx). congruence.
      + destruct M as [S D]. rewrite IH, orb_false_iff, negb_false_iff, Nat.eqb_eq. split.
        * intros [[F L] H]. split; [exact F|]. intros q [<- | I]; [|auto]. exists l. split; [exact Ep|]. split; [exact S|].
          intros P0. rewrite P0 in L. cbn in L. apply D. now destruct calls.
        * intros [F H]. split; [|intros q I; apply H; now right]. split; [exact F|].
          destruct (H p (or_introl eq_refl)) as (l' & Q & _ & G). rewrite Ep in Q. injection Q as <-.
          destruct (parallel =? 0) eqn:E0; [|reflexivity]. apply Nat.eqb_eq in E0. assert (calls = []) by (apply D; auto). now subst.
  Qed.
End LintSpec.

(** Without worker processes (--parallel 0), lint passes exactly if the path is a directory, every shard's index has one entry per
    counted sample and one more, every split part can be loaded, and no sample of any of these fails to load. *)
Theorem C60_lint_in_process {Dat B} (load : rsample Dat -> pexc + B) part is_dir idx counts parts :
  lint load 0 part is_dir idx counts parts = LintPassed <->
  is_dir = true /\ (forall name n, In (name, n) counts -> exists f, idx name = Some f /\ index_len f = n + 1) /\
  forall p, In p parts -> exists l, part p = Ok l /\ forall x e, In x l -> ~ failure load x e.
Proof.
  unfold lint, check_index. destruct is_dir.
  2:{ split; [discriminate | intros [H _]; discriminate]. }
  pose proof (check_shards_spec idx counts true) as C. destruct (check_shards idx counts true) as [b|e]; cbn [bind].
  - destruct b.
    + rewrite lint_parts_spec. split.
      * intros [_ H]. split; [reflexivity|]. split; [apply C; reflexivity|]. intros p I. destruct (H p I) as (l & Q & _ & F). exists l. auto.
      * intros (_ & _ & H). split; [reflexivity|]. intros p I. destruct (H p I) as (l & Q & F). exists l. split; [exact Q|]. split; [|auto].
        intros x e Ix Hx. destruct e; try reflexivity; exfalso; eapply (F x); eauto; split; [exact Hx | discriminate | exact Hx | discriminate].
    + split; [discriminate|]. intros (_ & H & _). assert (false = true) by (apply C; auto). discriminate.
  - split; [discriminate|]. intros (_ & H & _). destruct C as (name & n & I & Q). destruct (H name n I) as (f & F & _). congruence.
Qed.
Print Assumptions C60_lint_in_process.

(** With worker processes (the default is one) lint does not notice samples that fail to load: it passes whenever the index is right, the
    parts can be loaded and there are no system exceptions, however many samples fail. *)
Theorem C60_lint_workers_refuted : forall Dat B (load : rsample Dat -> pexc + B) part idx counts parts parallel,
  0 < parallel ->
  (forall name n, In (name, n) counts -> exists f, idx name = Some f /\ index_len f = n + 1) ->
  (forall p, In p parts -> exists l, part p = Ok l /\ forall x e, In x l -> load x = inl e -> is_system e = false) ->
  lint load parallel part true idx counts parts = LintPassed.
Proof.
  intros Dat B load part idx counts parts parallel Hp Hi Hparts. unfold lint, check_index.
  pose proof (check_shards_spec idx counts true) as C. destruct (check_shards idx counts true) as [b|e]; cbn [bind].
  - assert (b = true) as -> by (apply C; auto). apply lint_parts_spec. split; [reflexivity|]. intros p I.
    destruct (Hparts p I) as (l & Q & S). exists l. split; [exact Q|]. split; [exact S|]. intros ->. lia.
  - destruct C as (name & n & I & Q). destruct (Hi name n I) as (f & F & _). congruence.
Qed.
Print Assumptions C60_lint_workers_refuted.

(** The list of failing samples that lint prints never names a sample that fails to load (errors in reading the tar file itself are not
    part of this model of lint; these carry a key, see C60_unreadable_parts). *)
Theorem C60_lint_names_none_refuted : forall Dat B (load : rsample Dat -> pexc + B) parallel part is_dir idx counts parts l,
  lint load parallel part is_dir idx counts parts = LintFailed l -> l = [].
Proof.
  intros Dat B load parallel part is_dir idx counts parts l. unfold lint. destruct (check_index is_dir idx counts) as [[[|]|]|]; try discriminate;
    try (intros H; injection H as <-; reflexivity).
  assert (G : forall ps failed ign, ign = [] -> lint_parts load parallel part ps failed ign = LintFailed l -> l = []).
  { induction ps as [|p ps IH]; intros failed ign -> H; cbn [lint_parts] in H.
    - destruct failed; [injection H as <-; reflexivity | discriminate].
    - destruct (part p) as [s|]; [|discriminate]. destruct (map_load load wds_arg note s) as [[ys calls] [e|]] eqn:E.
      + injection H as <-. reflexivity.
      + eapply IH; [|exact H]. cbn [app]. apply (proj1 (C60_key_unknown_refuted Dat B)) in E.
        destruct (parallel =? 0); [|reflexivity]. clear - E. induction E as [|c cs Hc _ IHc]; [reflexivity|]. cbn [flat_map]. rewrite Hc. exact IHc. }
  apply G. reflexivity.
Qed.
Print Assumptions C60_lint_names_none_refuted.

(** An empty or missing split part is not skipped: lint crashes (the class named in the except clause does not exist); a metadataset file
    always fails. *)
Theorem C60_lint_empty_part_refuted : forall Dat B (load : rsample Dat -> pexc + B) parallel part idx counts p ps,
  (forall name n, In (name, n) counts -> exists f, idx name = Some f /\ index_len f = n + 1) ->
  (exists e, part p = Err e) -> lint load parallel part true idx counts (p :: ps) = LintCrashed OtherError.
Proof.
  intros Dat B load parallel part idx counts p ps Hi [e He]. unfold lint, check_index.
  pose proof (check_shards_spec idx counts true) as C. destruct (check_shards idx counts true) as [b|e']; cbn [bind].
  - assert (b = true) as -> by (apply C; auto). cbn. now rewrite He.
  - destruct C as (name & n & I & Q). destruct (Hi name n I) as (f & F & _). congruence.
Qed.
Print Assumptions C60_lint_empty_part_refuted.
Theorem C60_lint_metadataset_refuted : forall Dat B (load : rsample Dat -> pexc + B) parallel part idx counts parts,
  lint load parallel part false idx counts parts = LintFailed [].
Proof. reflexivity. Qed.

(** ** examples *)
Definition load_ex (r : rsample nat) : pexc + nat :=
  if seqb (rs_key r) "s/bad" then inl (PUser 1) else if seqb (rs_key r) "s/skip" then inl PSkip else inr (snd (rs_rk r)).
Definition samples_ex : list (rsample nat) :=
  [mkRSam "s/a" ("s", 0) []; mkRSam "s/bad" ("s", 1) []; mkRSam "s/skip" ("s", 2) []; mkRSam "s/b" ("s", 3) []].
Example C60_nonvacuous :
  map_load load_ex wds_arg note samples_ex = ([0; 3], [(PUser 1, None)], None) /\
  map_load load_ex wds_arg reraise samples_ex = ([0], [(PUser 1, None)], Some (PUser 1)) /\
  failures load_ex samples_ex [(mkRSam "s/bad" ("s", 1) [], PUser 1)] /\
  lint load_ex 0 (fun _ => Ok samples_ex) true (fun _ => Some (flat_map pack [0; 1; 2; 3; 4]%Z)) [("s", 4)] ["train"] = LintFailed [] /\
  lint load_ex 1 (fun _ => Ok samples_ex) true (fun _ => Some (flat_map pack [0; 1; 2; 3; 4]%Z)) [("s", 4)] ["train"] = LintPassed /\
  lint load_ex 0 (fun _ => Ok [mkRSam "s/a" ("s", 0) []]) true (fun _ => Some (flat_map pack [0; 1]%Z)) [("s", 1)] ["train"; "val"] = LintPassed.
Proof.
  split; [reflexivity|]. split; [reflexivity|]. split.
  - apply fl_fine; [intros e [Q _]; discriminate|]. apply fl_bad; [split; [reflexivity | discriminate]|].
    apply fl_fine; [intros e [Q1 Q2]; injection Q1 as <-; contradiction|]. apply fl_fine; [intros e [Q _]; discriminate|]. constructor.
  - repeat split; vm_compute; reflexivity.
Qed.
