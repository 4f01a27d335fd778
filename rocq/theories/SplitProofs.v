(** Proofs about split parts (C59). *)
From Coq Require Import String Ascii.
From Verif Require Import Base Files Tar TarSpec TarProofs TarProofs2 Split SplitSpec P_TarNames.
Local Open Scope string_scope.
Local Open Scope list_scope.
Local Open Scope nat_scope.

Lemma lookup_in {V} k (d : list (string * V)) v : lookup k d = Some v -> In (k, v) d.
Proof.
  induction d as [|[k' v'] d IH]; cbn; [discriminate|]. destruct (seqb k' k) eqn:E.
  - apply seqb_eq in E as ->. intros H. injection H as ->. now left.
  - intros H. right. auto.
Qed.
Lemma in_lookup {V} k (d : list (string * V)) v : NoDup (map fst d) -> In (k, v) d -> lookup k d = Some v.
Proof.
  induction d as [|[k' v'] d IH]; cbn; [easy|]. intros ND I. inversion ND as [|? ? N1 N2]; subst.
  destruct I as [E | I].
  - injection E as -> ->. now rewrite seqb_refl.
  - destruct (seqb k' k) eqn:E; [|auto]. apply seqb_eq in E as ->. exfalso. apply N1. apply in_map_iff. now exists (k, v).
Qed.
Lemma mem_in x l : mem x l = true <-> In x l.
Proof.
  unfold mem. rewrite existsb_exists. split.
  - intros (y & I & E). apply seqb_eq in E as ->. exact I.
  - intros I. exists x. split; [exact I | apply seqb_refl].
Qed.

Section Expand.
  Variable be : string -> result (list string).

  Lemma expand_ok l r : expand be l = Ok r <-> spelled_out be l r.
  Proof.
    unfold expand. split.
    - revert r. induction l as [|p l IH]; cbn; intros r H.
      + injection H as <-. constructor.
      + destruct (be p) as [ns|e] eqn:E; [|discriminate].
        destruct (sequence (map be l)) as [ll|e]; [|discriminate]. cbn in H. injection H as <-.
        constructor; [exact E|]. apply IH. reflexivity.
    - induction 1 as [|p ps ns l E _ IH]; cbn; [reflexivity|]. rewrite E.
      destruct (sequence (map be ps)) as [ll|e]; cbn in *; [|discriminate]. injection IH as ->. reflexivity.
  Qed.
  Lemma expand_err l e : expand be l = Err e -> ~ well_formed be l.
  Proof.
    unfold expand, well_formed. intros H W. revert H. induction l as [|p l IH]; cbn; [discriminate|].
    destruct (W p (or_introl eq_refl)) as [ns ->].
    destruct (sequence (map be l)) as [ll|e']; cbn in *; [discriminate|]. intros H. apply IH; [|exact H].
    intros q I. apply W. now right.
  Qed.
  Lemma spelled_wf l r : spelled_out be l r -> well_formed be l.
  Proof.
    induction 1 as [|p ps ns l E _ IH]; intros q I; [destruct I|]. destruct I as [<- | I]; [eauto | exact (IH q I)].
  Qed.
  Lemma spelled_in l r : spelled_out be l r -> forall n, In n r <-> named_by be l n.
  Proof.
    induction 1 as [|p ps ns l E _ IH]; intros n.
    - split; [intros [] | intros (q & ns & [] & _)].
    - rewrite in_app_iff, IH. split.
      + intros [I | (q & ms & I1 & I2 & I3)]; [exists p, ns | exists q, ms]; repeat split; auto; [now left | now right].
      + intros (q & ms & [<- | I1] & I2 & I3); [left; congruence | right; exists q, ms; auto].
  Qed.
  Lemma wf_spelled l : well_formed be l -> exists r, spelled_out be l r.
  Proof.
    intros W. destruct (expand be l) as [r|e] eqn:E; [exists r; now apply expand_ok|]. now apply expand_err in E.
  Qed.
End Expand.

Lemma kept_filter {A} (P : A -> Prop) f (l : list A) : (forall x, f x = true <-> P x) -> kept P l (filter f l).
Proof.
  intros H. induction l as [|x l IH]; cbn; [constructor|]. destruct (f x) eqn:E.
  - constructor; [now apply H | exact IH].
  - constructor; [|exact IH]. rewrite <- H, E. discriminate.
Qed.
Lemma kept_in {A} (P : A -> Prop) (l l' : list A) : kept P l l' -> forall x, In x l' <-> In x l /\ P x.
Proof.
  induction 1 as [|y l l' Hy _ IH|y l l' Hy _ IH]; intros x; cbn; [tauto | |]; rewrite IH; split.
  - intros [<- | [I Q]]; tauto.
  - intros [[<- | I] Q]; tauto.
  - intros [I Q]; tauto.
  - intros [[<- | I] Q]; tauto.
Qed.

Lemma sequence_shards counts names shards : sequence (map (shard_info counts) names) = Ok shards ->
  map sh_name shards = names /\ forall s, In s shards -> sh_offset s = 0 /\ In (sh_name s, sh_count s) counts.
Proof.
  revert shards. induction names as [|n names IH]; cbn; intros shards H.
  - injection H as <-. split; [reflexivity | intros s []].
  - unfold shard_info at 1 in H. destruct (lookup n counts) as [c|] eqn:E; [|discriminate].
    destruct (sequence (map (shard_info counts) names)) as [r|]; [|discriminate]. injection H as <-.
    destruct (IH r eq_refl) as [<- B]. split; [reflexivity|]. intros s [<- | I]; [|auto]. cbn. split; [reflexivity | now apply lookup_in].
Qed.
Lemma sequence_shards_ok counts names : (forall n, In n names -> exists c, lookup n counts = Some c) ->
  exists shards, sequence (map (shard_info counts) names) = Ok shards.
Proof.
  induction names as [|n names IH]; cbn; intros H; [eauto|].
  unfold shard_info at 1. destruct (H n (or_introl eq_refl)) as [c ->].
  destruct IH as [r ->]; [intros m I; apply H; now right|]. eauto.
Qed.
Lemma sequence_shards_known counts names shards : sequence (map (shard_info counts) names) = Ok shards ->
  forall n, In n names -> exists c, In (n, c) counts.
Proof.
  intros H n I. destruct (sequence_shards H) as [<- B]. apply in_map_iff in I as (s & <- & I). destruct (B s I). eauto.
Qed.

(** the whole behaviour at once *)
Lemma from_config_cases be counts sp part : NoDup (map fst (sp_parts sp)) -> forall patterns ex names,
  In (part, patterns) (sp_parts sp) -> spelled_out be (sp_exclude sp) ex -> spelled_out be patterns names ->
  from_config be counts sp part =
    let files := filter (fun n => negb (mem n ex)) names in
    if List.length files =? 0 then MEmpty
    else match sequence (map (shard_info counts) files) with
         | Err e => MErr e
         | Ok shards => MOk (mkMeta (filter (has_char slash) ex) shards)
         end.
Proof.
  intros ND patterns ex names I E1 E2. unfold from_config. rewrite (in_lookup ND I).
  apply expand_ok in E1 as ->. apply expand_ok in E2 as ->. reflexivity.
Qed.
Lemma from_config_inv be counts sp part : (forall e, from_config be counts sp part <> MErr e) ->
  exists patterns ex names, In (part, patterns) (sp_parts sp) /\ spelled_out be (sp_exclude sp) ex /\ spelled_out be patterns names.
Proof.
  unfold from_config. intros H. destruct (lookup part (sp_parts sp)) as [patterns|] eqn:E; [|now destruct (H AssertionError)].
  apply lookup_in in E. destruct (expand be (sp_exclude sp)) as [ex|e] eqn:E1; [|now destruct (H e)].
  destruct (expand be patterns) as [names|e] eqn:E2; [|now destruct (H e)].
  exists patterns, ex, names. split; [exact E|]. split; now apply expand_ok.
Qed.

Lemma has_slash a b : has_char slash (a ++ String slash b) = true.
Proof.
  induction a as [|c a IH]; unfold has_char in *; cbn [append cut].
  - unfold ceqb. now rewrite Ascii.eqb_refl.
  - destruct (ceqb c slash); [reflexivity|]. destruct (cut slash (a ++ String slash b)) as [[? ?]|]; [reflexivity | discriminate].
Qed.

Lemma negb_not x l : negb (mem x l) = true <-> ~ In x l.
Proof. rewrite <- mem_in. destruct (mem x l); cbn; split; congruence. Qed.

(** ** removing whole samples *)
Section Live.
  Context {Dat : Type}.
  Variable drop : string -> bool.

  Lemma live_run (e : ent Dat) g : Forall (fun e' => en_base e' = en_base e) g ->
    filter (fun e => negb (drop (en_base e))) (e :: g) = if drop (en_base e) then [] else e :: g.
  Proof.
    intros H. assert (X : forall l, Forall (fun e' : ent Dat => en_base e' = en_base e) l ->
      filter (fun e => negb (drop (en_base e))) l = if drop (en_base e) then [] else l).
    { induction 1 as [|e' l Hb _ IH]; cbn; [now destruct (drop _)|]. rewrite Hb, IH. now destruct (drop (en_base e)). }
    apply X. constructor; [reflexivity | exact H].
  Qed.
  Lemma live_concat (G : list (list (ent Dat))) : wg G ->
    filter (fun e => negb (drop (en_base e))) (concat G) = concat (filter (fun g => negb (drop (base_of g))) G).
  Proof.
    induction 1 as [|e g G H1 H2 H3 IH]; [reflexivity|]. cbn [concat]. rewrite filter_app, IH, live_run by exact H1.
    cbn [filter base_of]. now destruct (drop (en_base e)).
  Qed.
  Lemma filter_wg (P : list (ent Dat) -> bool) (G : list (list (ent Dat))) : wg G -> NoDup (map base_of G) -> wg (filter P G).
  Proof.
    induction 1 as [|e g G H1 H2 H3 IH]; cbn [map]; intros ND; [constructor|]. inversion ND as [|? ? N1 N2]; subst.
    cbn [filter]. destruct (P (e :: g)); [|auto]. constructor; [exact H1 | | auto].
    destruct (filter P G) as [|[|e' g'] G'] eqn:E; auto. intros Q. apply N1. cbn [base_of]. rewrite Q.
    assert (I : In (e' :: g') (filter P G)) by (rewrite E; now left). apply filter_In in I as [I _].
    change (en_base e') with (base_of (e' :: g')). now apply in_map.
  Qed.
End Live.

Lemma number_seen {Dat} name pf (l : list (list (ent Dat))) o : forall i,
  map seen (number (fun i g => expected name pf (i + o) g) i l) = map (fun g => (sample_key name g, parts_of pf g)) l.
Proof. induction l as [|g l IH]; intros i; cbn; [reflexivity|]. f_equal. apply IH. Qed.
