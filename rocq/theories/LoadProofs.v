(** Lemmas on Load.v *)
From Coq Require Import String.
From Verif Require Import Base Tar TarSpec FieldAccess Load.
Local Open Scope string_scope.
Local Open Scope list_scope.
Local Open Scope nat_scope.

Lemma mem_In k l : mem k l = true <-> In k l.
Proof.
  unfold mem. rewrite existsb_exists. split; [intros (x & H & E); apply String.eqb_eq in E; subst; exact H|].
  intros H. exists k. split; [exact H|apply String.eqb_refl].
Qed.

Lemma lookup_app k a b : lookup k (a ++ b) = match lookup k a with Some v => Some v | None => lookup k b end.
Proof. induction a as [|[k' v] a IH]; cbn; [reflexivity|]. destruct (String.eqb k k'); [reflexivity|exact IH]. Qed.
Lemma lookup_None k l : lookup k l = None <-> ~ In k (names l).
Proof.
  induction l as [|[k' v] l IH]; cbn; [tauto|]. destruct (String.eqb_spec k k'); [subst; split; [discriminate|]; intros H; exfalso; auto|].
  rewrite IH. split; [intros H [E|I]; [congruence|auto]|tauto].
Qed.
Lemma lookup_Some_In k l v : lookup k l = Some v -> In (k, v) l.
Proof. induction l as [|[k' v'] l IH]; cbn; [discriminate|]. destruct (String.eqb_spec k k'); [intros [= ->]; subst; auto|auto]. Qed.

Lemma all_some_spec {X} (l : list (option X)) r : all_some l = Some r <-> l = map Some r.
Proof.
  revert r. induction l as [|[x|] l IH]; intros r; cbn [all_some].
  - split; [intros [= <-]; reflexivity|]. destruct r; [reflexivity|discriminate].
  - destruct (all_some l) as [r'|] eqn:E; cbn [option_map].
    + assert (Q : l = map Some r') by (apply IH; reflexivity). subst l. split; [intros [= <-]; reflexivity|]. destruct r as [|y r]; [discriminate|].
      intros H. cbn in H. injection H as <- H. f_equal. f_equal. apply IH in H. congruence.
    + split; [discriminate|]. destruct r as [|y r]; [discriminate|]. intros H. cbn in H. injection H as <- H. apply IH in H. discriminate.
  - split; [discriminate|]. destruct r; discriminate.
Qed.

Lemma construct_ok cls kw i : construct cls kw = Ok i <->
  (forall k, In k (names kw) -> In k (names cls)) /\ map (field_value kw) cls = map Some i.
Proof.
  unfold construct. destruct (forallb _ (names kw)) eqn:E; cbn [negb].
  - rewrite forallb_forall in E. rewrite <- all_some_spec. split.
    + destruct (all_some _) as [r|]; [|discriminate]. intros [= ->]. split; [|reflexivity]. intros k H. apply mem_In, E, H.
    + intros [_ ->]. reflexivity.
  - split; [discriminate|]. intros [H _]. exfalso. rewrite <- Bool.not_true_iff_false in E. apply E. apply forallb_forall. intros k Hk. apply mem_In. auto.
Qed.

(** which value a field gets *)
Lemma construct_field cls kw i n : NoDup (names cls) -> construct cls kw = Ok i -> In n (names cls) ->
  lookup n i = match lookup n kw with
               | Some v => Some v
               | None => match find (fun f => String.eqb n (fst f)) cls with Some (_, Default v) | Some (_, Factory v) => Some v | _ => None end
               end.
Proof.
  intros HN H. apply construct_ok in H. destruct H as [_ H]. revert i H. induction cls as [|[m d] cls IH]; intros i H I; [destruct I|].
  cbn [map] in H. destruct i as [|[m' v] i]; [discriminate|]. injection H as H1 H. inversion HN as [|? ? N1 N2]; subst.
  cbn [find fst lookup]. unfold field_value in H1. cbn [fst snd] in H1.
  destruct (String.eqb_spec n m) as [->|NE].
  - destruct (lookup m kw) as [x|]; [injection H1 as <- <-; rewrite String.eqb_refl; reflexivity|].
    destruct d; [discriminate| |]; injection H1 as <- <-; rewrite String.eqb_refl; reflexivity.
  - assert (m' = m) as ->.
    { destruct (lookup m kw); [congruence|]. destruct d; congruence. }
    destruct (String.eqb_spec n m); [congruence|]. apply IH; auto. destruct I as [I|I]; [cbn in I; congruence|exact I].
Qed.
Lemma construct_names cls kw i : construct cls kw = Ok i -> names i = names cls.
Proof.
  intros H. apply construct_ok in H. destruct H as [_ H]. revert i H. induction cls as [|[m d] cls IH]; intros [|[m' v] i] H; try discriminate; [reflexivity|].
  cbn [map] in H. injection H as H1 H. cbn. f_equal; [|apply IH; exact H]. unfold field_value in H1. cbn [fst snd] in H1.
  destruct (lookup m kw); [congruence|]. destruct d; congruence.
Qed.

Lemma load_fields_ok v fields l : load_fields v fields = Ok l <-> Forall2 (fun f kx => fst kx = fst f /\ access v (snd f) = FOk (snd kx)) fields l.
Proof.
  revert l. induction fields as [|[k f] fields IH]; intros l; cbn [load_fields].
  - split; [intros [= <-]; constructor|]. intros H. inversion H. reflexivity.
  - split.
    + destruct (access v f) as [x|] eqn:E; [|discriminate]. destruct (load_fields v fields) as [l'|]; [|discriminate]. cbn [bind]. intros [= <-].
      constructor; [split; [reflexivity|exact E]|]. apply IH. reflexivity.
    + intros H. inversion H as [|? [k' x] ? l' [E1 E2] H']; subst. cbn [fst snd] in *. subst k'. rewrite E2.
      apply IH in H'. rewrite H'. reflexivity.
Qed.
Lemma load_fields_names v fields l : load_fields v fields = Ok l -> names l = names fields.
Proof. intros H. apply load_fields_ok in H. induction H as [|f kx fs l [E _] H IH]; cbn; [reflexivity|]. f_equal; [exact E|exact IH]. Qed.
Lemma load_fields_lookup v fields l k : NoDup (names fields) -> load_fields v fields = Ok l ->
  lookup k l = match find (fun f => String.eqb k (fst f)) fields with Some f => match access v (snd f) with FOk x => Some x | _ => None end | None => None end.
Proof.
  intros _ H. apply load_fields_ok in H. induction H as [|[k' f] [k2 x] fs l [E1 E2] H IH]; cbn [lookup find fst snd] in *; [reflexivity|]. subst k2.
  destruct (String.eqb k k'); [cbn [snd]; rewrite E2; reflexivity|exact IH].
Qed.

(** ** the part filter *)
Lemma access1_dict m m' f : (forall p rest, f = p :: rest -> lookup p m = lookup p m') -> f <> [] -> access1 (VDict m) f = access1 (VDict m') f.
Proof. intros H N. destruct f as [|p f]; [congruence|]. cbn [access1]. rewrite (H p f eq_refl). reflexivity. Qed.
Lemma access_dict m m' alts : (forall f, In f alts -> f <> []) -> (forall p rest, In (p :: rest) alts -> lookup p m = lookup p m') ->
  access (VDict m) alts = access (VDict m') alts.
Proof.
  induction alts as [|f alts IH]; intros N H; [reflexivity|].
  assert (E : access1 (VDict m) f = access1 (VDict m') f).
  { apply access1_dict; [intros p rest ->; apply (H p rest); left; reflexivity|apply N; left; reflexivity]. }
  cbn [access]. rewrite E, IH; [reflexivity| |]; [intros; apply N; right; assumption|]. intros p rest I. apply (H p rest). right. exact I.
Qed.

Lemma split_nonempty s f : In f (split_field_access s) -> f <> [].
Proof.
  unfold split_field_access. intros I. apply in_map_iff in I. destruct I as (o & <- & _). unfold split_option.
  destruct (field_re_matches o); [|discriminate]. destruct (name_and_access o). discriminate.
Qed.

Section Filter.
  Context {Dat : Type}.
  Lemma dict_set_filter (p : string -> bool) k (v : Dat) d : p k = true ->
    filter (fun x => p (fst x)) (dict_set k v d) = dict_set k v (filter (fun x => p (fst x)) d).
  Proof.
    intros H. induction d as [|[k' v'] d IH]; cbn [dict_set filter fst]; [rewrite H; reflexivity|]. unfold seqb.
    destruct (String.eqb_spec k' k); [subst; cbn [filter fst dict_set]; rewrite H; cbn [dict_set]; unfold seqb; rewrite String.eqb_refl; reflexivity|].
    cbn [filter fst]. destruct (p k'); [|exact IH]. cbn [dict_set]. unfold seqb. destruct (String.eqb_spec k' k); [congruence|]. rewrite IH. reflexivity.
  Qed.
  Lemma dict_set_filter_out (p : string -> bool) k (v : Dat) d : p k = false ->
    filter (fun x => p (fst x)) (dict_set k v d) = filter (fun x => p (fst x)) d.
  Proof.
    intros H. induction d as [|[k' v'] d IH]; cbn [dict_set filter fst]; [rewrite H; reflexivity|]. unfold seqb.
    destruct (String.eqb_spec k' k); [subst; cbn [filter fst]; rewrite H; reflexivity|]. cbn [filter fst]. rewrite IH. reflexivity.
  Qed.
  (** the parts read with a filter are those of the parts read without that satisfy it *)
  Lemma parts_of_filter (p : string -> bool) (g : list (ent Dat)) :
    parts_of p g = filter (fun x => p (fst x)) (parts_of (fun _ => true) g).
  Proof.
    unfold parts_of. change (@nil (string * Dat)) with (filter (fun x : string * Dat => p (fst x)) []) at 1. generalize (@nil (string * Dat)).
    induction g as [|e g IH]; intros d; cbn [fold_left]; [reflexivity|]. rewrite <- IH. f_equal. destruct (p (en_ext e)) eqn:E.
    - rewrite dict_set_filter by exact E. reflexivity.
    - rewrite dict_set_filter_out by exact E. reflexivity.
  Qed.
End Filter.
