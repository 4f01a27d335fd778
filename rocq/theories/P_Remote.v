(** C79 rclone:// paths use the remote that the rclone configuration describes. *)
From Coq Require Import String Ascii.
From Verif Require Import Base Remote.
Local Open Scope string_scope.
Local Open Scope list_scope.
Local Open Scope nat_scope.

(** ** Specification *)
(** where rclone looks for its configuration, in this order *)
Definition candidates (e : env) : list path :=
  match exe e with Some x => [removelast x ++ ["rclone.conf"]] | None => [] end ++
  match xdg e with Some x => [x ++ ["rclone"; "rclone.conf"]] | None => [] end ++
  [home e ++ [".config"; "rclone"; "rclone.conf"]; home e ++ [".rclone.conf"]].
(** the first candidate that exists *)
Definition first_file (e : env) (p : path) : Prop :=
  is_file e p = true /\ exists before after, candidates e = before ++ p :: after /\ Forall (fun q => is_file e q = false) before.
(** the found executable is a file, and what contains a file is a directory *)
Definition sane (e : env) : Prop :=
  (forall x, exe e = Some x -> is_file e x = true) /\
  (forall x, xdg e = Some x -> is_file e (x ++ ["rclone"; "rclone.conf"]) = true -> is_dir e x = true).

Definition percent_free (v : string) : Prop := ~ In "%"%char (list_ascii_of_string v).
(** what the options of a section say about [k] *)
Definition says (m : list (string * string)) (k : string) (o : option string) : Prop :=
  match o with Some v => In (k, v) m | None => ~ In k (map fst m) end.
Definition is_url (s : string) : Prop := exists h, s = ("http://" ++ h)%string \/ s = ("https://" ++ h)%string.
Definition is_host (s : string) : Prop := s <> "" /\ forall h, s <> ("http" ++ h)%string.
(** the address that is contacted for an endpoint *)
Definition contacted (ep url : option string) : Prop :=
  match ep with
  | None => url = None
  | Some s => (is_url s /\ url = Some s) \/ (is_host s /\ url = Some ("https://" ++ s)%string) \/ (s = "" /\ url = Some "")
  end.
(** a file that configparser accepts, without percent signs, and with endpoints that are either URLs or do not look like one *)
Definition plain (c : rawcfg) : Prop :=
  NoDup (map fst c) /\
  (forall n m, In (n, m) c -> NoDup (map fst m) /\ (forall k v, In (k, v) m -> percent_free v) /\
     (forall s, In ("endpoint", s) m -> is_url s \/ is_host s \/ s = "")).

(** ** Proofs *)
Lemma first_file_cons (f : path -> bool) p l q :
  (f q = true /\ exists b a, p :: l = b ++ q :: a /\ Forall (fun x => f x = false) b) <->
  (f p = true /\ p = q) \/ (f p = false /\ f q = true /\ exists b a, l = b ++ q :: a /\ Forall (fun x => f x = false) b).
Proof.
  split.
  - intros (H & b & a & E & F). destruct b as [|x b]; inversion E; subst; [left; auto|]. right. split; [exact (Forall_inv F)|]. split; [exact H|].
    exists b, a. split; [reflexivity|exact (Forall_inv_tail F)].
  - intros [(H & ->)|(H & H1 & b & a & -> & F)]; [split; [exact H|]; exists [], l; split; [reflexivity|constructor]|].
    split; [exact H1|]. exists (p :: b), a. split; [reflexivity|]. constructor; assumption.
Qed.
Lemma find_first (f : path -> bool) l p :
  find f l = Some p <-> (f p = true /\ exists b a, l = b ++ p :: a /\ Forall (fun x => f x = false) b).
Proof.
  induction l as [|x l IH].
  - split; [discriminate|]. intros (_ & b & a & E & _). destruct b; discriminate.
  - cbn [find]. rewrite first_file_cons, <- IH. destruct (f x) eqn:E.
    + split; [intros H; inversion H; subst; left; auto|intros [(_ & ->)|(H & _)]; [reflexivity|discriminate]].
    + split; [|intros [(H & _)|(_ & H)]; [discriminate|exact H]]. intros H. right. split; [reflexivity|exact H].
Qed.
Lemma config_path_find e : sane e -> config_path e = find (is_file e) (candidates e).
Proof.
  intros (HE & HX). unfold config_path, candidates. cbv zeta.
  assert (T : (if is_file e (home e ++ [".config"; "rclone"; "rclone.conf"]) then Some (home e ++ [".config"; "rclone"; "rclone.conf"])
    else if is_file e (home e ++ [".rclone.conf"]) then Some (home e ++ [".rclone.conf"]) else None) =
    find (is_file e) [home e ++ [".config"; "rclone"; "rclone.conf"]; home e ++ [".rclone.conf"]]) by reflexivity.
  rewrite T. clear T. set (third := find _ _).
  set (second := match xdg e with Some x => _ | None => _ end).
  assert (S2 : second = find (is_file e) (match xdg e with Some x => [x ++ ["rclone"; "rclone.conf"]] | None => [] end ++
     [home e ++ [".config"; "rclone"; "rclone.conf"]; home e ++ [".rclone.conf"]])).
  { unfold second. destruct (xdg e) as [x|]; [|reflexivity]. cbn [app find]. fold third. specialize (HX x eq_refl).
    destruct (is_file e (x ++ ["rclone"; "rclone.conf"])); [rewrite HX by reflexivity; reflexivity|]. destruct (is_dir e x); reflexivity. }
  destruct (exe e) as [x|]; [|exact S2]. rewrite (HE x eq_refl). unfold with_name. cbn [app find]. rewrite <- S2. reflexivity.
Qed.

(** The configuration that is read is the first of rclone's places that has one. *)
Theorem C79_config_file e : sane e ->
  (forall p, config_path e = Some p <-> first_file e p) /\
  (config_path e = None <-> Forall (fun q => is_file e q = false) (candidates e)).
Proof.
  intros HS. rewrite (config_path_find HS). split; [intros p; apply find_first|]. split.
  - intros H. rewrite Forall_forall. intros q Hq. apply (find_none _ _ H). exact Hq.
  - intros H. rewrite Forall_forall in H. destruct (find _ _) as [q|] eqn:E; [|reflexivity]. apply find_some in E. destruct E as [E1 E2]. rewrite (H q E1) in E2. discriminate.
Qed.
Print Assumptions C79_config_file.

(** an executable that is not there, and a directory that is none, are as good as none *)
Theorem C79_missing_places x d h f g t :
  (f x = false -> config_path (mkEnv (Some x) d h f g t) = config_path (mkEnv None d h f g t)) /\
  (forall e y, g y = false -> config_path (mkEnv e (Some y) h f g t) = config_path (mkEnv e None h f g t)).
Proof.
  split.
  - intros H. unfold config_path. cbn [exe xdg home is_file is_dir]. rewrite H. reflexivity.
  - intros e y H. unfold config_path. cbn [exe xdg home is_file is_dir]. rewrite H. reflexivity.
Qed.
Print Assumptions C79_missing_places.

Lemma sfind_in {A} k (v : A) l : sfind k l = Some v -> In (k, v) l.
Proof. induction l as [|[k' v'] l IH]; [discriminate|]. cbn. destruct (String.eqb_spec k k') as [->|]; [intros H; inversion H; auto|auto]. Qed.
Lemma sfind_none {A} k (l : list (string * A)) : sfind k l = None <-> ~ In k (map fst l).
Proof.
  induction l as [|[k' v'] l IH]; [cbn; tauto|]. cbn. destruct (String.eqb_spec k k') as [->|N]; [split; [discriminate|tauto]|].
  rewrite IH. split; [intros H [E|H1]; [congruence|tauto]|tauto].
Qed.
Lemma in_sfind {A} k (v : A) l : NoDup (map fst l) -> In (k, v) l -> sfind k l = Some v.
Proof.
  induction l as [|[k' v'] l IH]; [contradiction|]. cbn [map fst]. intros ND [E|H].
  - inversion E; subst. cbn. rewrite String.eqb_refl. reflexivity.
  - inversion ND; subst. cbn. destruct (String.eqb_spec k k') as [->|]; [|auto]. exfalso. apply H2. apply (in_map fst) in H. exact H.
Qed.
Lemma says_sfind m k o : NoDup (map fst m) -> says m k o <-> sfind k m = o.
Proof.
  intros ND. destruct o as [v|]; cbn [says]; [|symmetry; apply sfind_none]. split; [apply in_sfind; exact ND|apply sfind_in].
Qed.

Lemma interp_other d m c r : c <> "%"%char -> interp (S d) m (String c r) = bind (interp (S d) m r) (fun t => Ok (String c t)).
Proof. intros H. destruct c as [[] [] [] [] [] [] [] []]; try reflexivity. congruence. Qed.
Lemma interp_plain d m v : percent_free v -> interp (S d) m v = Ok v.
Proof.
  induction v as [|c v IH]; [reflexivity|]. intros H. rewrite interp_other, IH; [reflexivity| |].
  - intros H1. apply H. right. exact H1.
  - intros ->. apply H. left. reflexivity.
Qed.
Lemma opt_get_plain m o : (forall k v, In (k, v) m -> percent_free v) -> opt_get m o = Ok (sfind o m).
Proof.
  intros H. unfold opt_get. destruct (sfind o m) as [v|] eqn:E; [|reflexivity]. rewrite interp_plain; [reflexivity|].
  apply (H o v). apply sfind_in. exact E.
Qed.
Definition entry_for (m : list (string * string)) : entry :=
  mkEntry (sfind "type" m) (sfind "provider" m) (sfind "access_key_id" m) (sfind "secret_access_key" m) (sfind "region" m) (sfind "endpoint" m).
Lemma entry_of_plain m : (forall k v, In (k, v) m -> percent_free v) -> entry_of m = Ok (entry_for m).
Proof. intros H. unfold entry_of. rewrite !opt_get_plain by exact H. reflexivity. Qed.
Lemma read_config_plain c : (forall n m, In (n, m) c -> forall k v, In (k, v) m -> percent_free v) ->
  read_config c = Ok (map (fun s => (fst s, entry_for (snd s))) c).
Proof.
  induction c as [|[n m] c IH]; [reflexivity|]. intros H. cbn [read_config]. rewrite (entry_of_plain (H n m (or_introl eq_refl))). cbn [bind].
  rewrite IH; [reflexivity|]. intros n' m' HI. apply H with n'. right. exact HI.
Qed.
Lemma sfind_map {A B} (f : A -> B) k l : sfind k (map (fun s => (fst s, f (snd s))) l) = option_map f (sfind k l).
Proof. induction l as [|[k' v] l IH]; [reflexivity|]. cbn. destruct (String.eqb k k'); [reflexivity|exact IH]. Qed.

Lemma low_s c : low c = "s"%char <-> c = "s"%char \/ c = "S"%char.
Proof. split; [|intros [-> | ->]; reflexivity]. destruct c as [[] [] [] [] [] [] [] []]; vm_compute; intros H; try discriminate; auto. Qed.
Lemma low_3 c : low c = "3"%char <-> c = "3"%char.
Proof. split; [|intros ->; reflexivity]. destruct c as [[] [] [] [] [] [] [] []]; vm_compute; intros H; try discriminate; auto. Qed.
Lemma lower_s3 t : String.eqb (lower t) "s3" = true <-> t = "s3" \/ t = "S3".
Proof.
  rewrite String.eqb_eq. split; [|intros [-> | ->]; reflexivity]. destruct t as [|a [|b [|c t]]]; try discriminate. cbn [lower]. intros H.
  injection H as H1 H2. apply (proj1 (low_s _)) in H1. apply (proj1 (low_3 _)) in H2. subst b. destruct H1 as [-> | ->]; auto.
Qed.

Lemma prefix_app p s : String.prefix p (p ++ s)%string = true.
Proof. induction p as [|c p IH]; [destruct s; reflexivity|]. cbn. destruct (ascii_dec c c); [exact IH|congruence]. Qed.
Lemma prefix_inv p s : String.prefix p s = true -> exists h, s = (p ++ h)%string.
Proof.
  revert s. induction p as [|c p IH]; intros s H; [exists s; reflexivity|]. destruct s as [|d s]; [discriminate|]. cbn in H.
  destruct (ascii_dec c d) as [->|]; [|discriminate]. destruct (IH s H) as (h & ->). exists h. reflexivity.
Qed.
Lemma contacted_iff ep url : match ep with Some s => is_url s \/ is_host s \/ s = "" | None => True end -> contacted ep url <-> url = endpoint_url ep.
Proof.
  destruct ep as [s|]; [|intros _; reflexivity]. cbn [contacted endpoint_url]. intros HC.
  assert (U : is_url s -> String.prefix "http" s = true /\ s <> "").
  { intros (h & [-> | ->]); split; try discriminate.
    - change ("http://" ++ h)%string with ("http" ++ ("://" ++ h))%string. apply prefix_app.
    - change ("https://" ++ h)%string with ("http" ++ ("s://" ++ h))%string. apply prefix_app. }
  assert (V : is_host s -> String.prefix "http" s = false /\ String.eqb s "" = false).
  { intros (H1 & H2). split; [|apply String.eqb_neq; exact H1]. destruct (String.prefix "http" s) eqn:E; [|reflexivity].
    apply prefix_inv in E. destruct E as (h & E). exfalso. apply (H2 h E). }
  split.
  - intros [(H & ->)|[(H & ->)|(-> & ->)]].
    + destruct (U H) as (-> & _). rewrite andb_false_r. reflexivity.
    + destruct (V H) as (-> & ->). reflexivity.
    + reflexivity.
  - intros ->. destruct HC as [H|[H| ->]].
    + left. split; [exact H|]. destruct (U H) as (-> & _). rewrite andb_false_r. reflexivity.
    + right. left. split; [exact H|]. destruct (V H) as (-> & ->). reflexivity.
    + right. right. auto.
Qed.

(** A remote can be opened exactly if its section is of type s3, and then with what that section says. *)
Theorem C79_connects e p remote c : config_path e = Some p -> plain (text e p) ->
  open_remote e None remote = Ok c <->
  exists m t, In (remote, m) (text e p) /\ In ("type", t) m /\ (t = "s3" \/ t = "S3") /\
    says m "access_key_id" (c_key c) /\ says m "secret_access_key" (c_secret c) /\ says m "region" (c_region c) /\
    (exists ep, says m "endpoint" ep /\ contacted ep (c_endpoint c)) /\ c_anon c = false /\ c_verify c = false.
Proof.
  intros HP (ND & HM). unfold open_remote, read_rclone_config. rewrite HP.
  rewrite read_config_plain by (intros n m HI; apply HM in HI; apply HI). cbn [bind]. unfold connect. rewrite sfind_map. split.
  - destruct (sfind remote (text e p)) as [m|] eqn:E; [|discriminate]. cbn [option_map]. cbn [entry_for en_type].
    apply sfind_in in E. destruct (HM _ _ E) as (NM & _ & HE). destruct (sfind "type" m) as [t|] eqn:ET; [|discriminate].
    destruct (String.eqb (lower t) "s3") eqn:E3; [|discriminate]. intros H. inversion H; subst c. clear H. exists m, t.
    split; [exact E|]. split; [apply sfind_in; exact ET|]. split; [apply lower_s3; exact E3|].
    cbn [c_key c_secret c_region c_endpoint c_anon c_verify entry_for en_key en_secret en_region en_endpoint].
    split; [apply says_sfind; [exact NM|reflexivity]|]. split; [apply says_sfind; [exact NM|reflexivity]|]. split; [apply says_sfind; [exact NM|reflexivity]|].
    split; [|split; reflexivity]. exists (sfind "endpoint" m). split; [apply says_sfind; [exact NM|reflexivity]|]. apply contacted_iff; [|reflexivity].
    destruct (sfind "endpoint" m) as [s|] eqn:EE; [|exact I]. apply HE. apply sfind_in. exact EE.
  - intros (m & t & HI & HT & H3 & HK & HS & HR & (ep & HEp & HC) & HA & HV). destruct (HM _ _ HI) as (NM & _ & HE).
    rewrite (in_sfind ND HI). cbn [option_map]. cbn [entry_for en_type]. rewrite (in_sfind NM HT). apply lower_s3 in H3. rewrite H3.
    apply (says_sfind _ _ NM) in HK, HS, HR. assert (HEp' := HEp). apply (says_sfind _ _ NM) in HEp. cbn [entry_for en_key en_secret en_region en_endpoint].
    rewrite HK, HS, HR, HEp. apply contacted_iff in HC; [rewrite <- HC; destruct c; cbn in *; subst; reflexivity|].
    destruct ep as [s|]; [|exact I]. apply HE. exact HEp'.
Qed.
Print Assumptions C79_connects.

(** A remote that is in no section is a ValueError; without any configuration file nothing can be opened; a given
    configuration is used instead of the machine's. *)
Theorem C79_unknown e remote :
  (forall p, config_path e = Some p -> plain (text e p) ->
     (open_remote e None remote = Err ValueError <-> ~ In remote (map fst (text e p)))) /\
  (config_path e = None -> forall c, open_remote e None remote <> Ok c) /\
  (forall cfg e', open_remote e (Some cfg) remote = open_remote e' (Some cfg) remote).
Proof.
  split; [|split; [|reflexivity]].
  - intros p HP (ND & HM). unfold open_remote, read_rclone_config. rewrite HP.
    rewrite read_config_plain by (intros n m HI; apply HM in HI; apply HI). cbn [bind]. unfold connect. rewrite sfind_map, <- sfind_none.
    destruct (sfind remote (text e p)) as [m|]; cbn [option_map]; [|tauto]. cbn [entry_for en_type].
    split; [|discriminate]. destruct (sfind "type" m) as [t|]; [|discriminate]. destruct (String.eqb (lower t) "s3"); discriminate.
  - intros HN c. unfold open_remote, read_rclone_config. rewrite HN. discriminate.
Qed.
Print Assumptions C79_unknown.

(** *** values that refer to others *)
(** the same name in lower case *)
Definition upper_letters : list ascii := list_ascii_of_string "ABCDEFGHIJKLMNOPQRSTUVWXYZ".
Definition lower_letters : list ascii := list_ascii_of_string "abcdefghijklmnopqrstuvwxyz".
Definition lowered (n n' : string) : Prop :=
  Forall2 (fun c d => In (c, d) (combine upper_letters lower_letters) \/ (~ In c upper_letters /\ d = c)) (list_ascii_of_string n) (list_ascii_of_string n').
(** [v] stands for [r], following references at most [d] deep: %(name)s is the value of the option [name], %% is a percent sign *)
Inductive expands (m : list (string * string)) : nat -> string -> string -> Prop :=
| ex_plain d v : percent_free v -> expands m (S d) v v
| ex_percent d pre post r : percent_free pre -> expands m (S d) post r -> expands m (S d) (pre ++ "%%" ++ post) (pre ++ "%" ++ r)
| ex_ref d pre n n' w post r r' : percent_free pre -> n <> "" -> ~ In ")"%char (list_ascii_of_string n) -> lowered n n' -> In (n', w) m ->
    expands m d w r -> expands m (S d) post r' -> expands m (S d) (pre ++ "%(" ++ n ++ ")s" ++ post) (pre ++ r ++ r').

Lemma low_table c : (exists d, In (c, d) (combine upper_letters lower_letters) /\ low c = d) \/ (~ In c upper_letters /\ low c = c).
Proof.
  destruct (in_dec ascii_dec c upper_letters) as [I|N].
  - left. vm_compute in I. repeat (destruct I as [<-|I]; [eexists; split; [|vm_compute; reflexivity]; vm_compute; tauto|]). destruct I.
  - right. split; [exact N|]. unfold low. destruct ((65 <=? nat_of_ascii c) && (nat_of_ascii c <=? 90)) eqn:E; [|reflexivity]. exfalso. apply N.
    destruct c as [[] [] [] [] [] [] [] []]; vm_compute in E; try discriminate E; vm_compute; tauto.
Qed.
Lemma low_lowered c d : In (c, d) (combine upper_letters lower_letters) \/ (~ In c upper_letters /\ d = c) -> low c = d.
Proof.
  intros [H|[N ->]].
  - vm_compute in H. repeat (destruct H as [H|H]; [injection H as <- <-; vm_compute; reflexivity|]). destruct H.
  - destruct (low_table c) as [(d & I & _)|[_ E]]; [|exact E]. exfalso. apply N. eapply in_combine_l. exact I.
Qed.
Lemma lower_lowered n : forall n', lowered n n' -> lower n = n'.
Proof.
  induction n as [|c n IH]; intros [|d n'] H; inversion H; subst; [reflexivity|]. cbn [lower]. f_equal; [now apply low_lowered|now apply IH].
Qed.

Lemma interp_pre d m pre s : percent_free pre -> interp (S d) m (pre ++ s) = bind (interp (S d) m s) (fun t => Ok (pre ++ t)%string).
Proof.
  induction pre as [|c pre IH]; intros H; [cbn [append]; destruct (interp (S d) m s); reflexivity|]. cbn [append]. rewrite interp_other.
  - rewrite IH; [|intros I; apply H; right; exact I]. destruct (interp (S d) m s); reflexivity.
  - intros ->. apply H. left. reflexivity.
Qed.
Definition igo (d : nat) (m : list (string * string)) : option string -> string -> result string :=
  fix go (st : option string) (s : string) {struct s} : result string :=
     match st with
     | None =>
         match s with
         | EmptyString => Ok ""
         | String "%" (String "%" r) => bind (go None r) (fun t => Ok (String "%" t))
         | String "%" (String "(" r) => go (Some "") r
         | String "%" _ => Err OtherError
         | String c r => bind (go None r) (fun t => Ok (String c t))
         end
     | Some name =>
         match s with
         | EmptyString => Err OtherError
         | String ")" (String "s" r) =>
             if String.eqb name "" then Err OtherError
             else match sfind (lower name) m with
                  | None => Err OtherError
                  | Some v => bind (interp d m v) (fun a => bind (go None r) (fun t => Ok (a ++ t)%string))
                  end
         | String ")" _ => Err OtherError
         | String c r => go (Some (name ++ String c "")%string) r
         end
     end.
Lemma interp_igo d m s : interp (S d) m s = igo d m None s.
Proof. reflexivity. Qed.
Lemma app_str_assoc (a b c : string) : ((a ++ b) ++ c)%string = (a ++ b ++ c)%string.
Proof. induction a as [|x a IH]; [reflexivity|]. cbn. now rewrite IH. Qed.
Lemma app_str_nil (a : string) : (a ++ "")%string = a.
Proof. induction a as [|x a IH]; [reflexivity|]. cbn. now rewrite IH. Qed.
Lemma igo_name d m n : forall acc s, ~ In ")"%char (list_ascii_of_string n) -> igo d m (Some acc) (n ++ s) = igo d m (Some (acc ++ n)%string) s.
Proof.
  induction n as [|c n IH]; intros acc s H; [rewrite app_str_nil; reflexivity|].
  replace (acc ++ String c n)%string with ((acc ++ String c "") ++ n)%string by (rewrite app_str_assoc; reflexivity).
  rewrite <- IH by (intros I; apply H; right; exact I). cbn [append].
  assert (C : c <> ")"%char) by (intros ->; apply H; left; reflexivity). destruct c as [[] [] [] [] [] [] [] []]; try reflexivity. congruence.
Qed.

Lemma interp_expands m d v r : NoDup (map fst m) -> expands m d v r -> interp d m v = Ok r.
Proof.
  intros ND H. induction H as [d v H|d pre post r H E IH|d pre n n' w post r r' H NE NP L I E1 IH1 E2 IH2].
  - apply interp_plain. exact H.
  - rewrite interp_pre by exact H. change ("%%" ++ post)%string with (String "%" (String "%" post)). rewrite interp_igo. cbn [igo].
    fold (igo d m). rewrite interp_igo in IH. rewrite IH. reflexivity.
  - rewrite interp_pre by exact H. change ("%(" ++ n ++ ")s" ++ post)%string with (String "%" (String "(" (n ++ ")s" ++ post))). rewrite interp_igo.
    change (igo d m None (String "%" (String "(" (n ++ ")s" ++ post)))) with (igo d m (Some "") (n ++ ")s" ++ post)). rewrite igo_name by exact NP. cbn [append].
    change (igo d m (Some n) (String ")" (String "s" post))) with
      (if String.eqb n "" then Err OtherError
       else match sfind (lower n) m with
            | None => Err OtherError
            | Some v => bind (interp d m v) (fun a => bind (igo d m None post) (fun t => Ok (a ++ t)%string))
            end).
    apply String.eqb_neq in NE. rewrite NE, (lower_lowered L), (in_sfind ND I), IH1. cbn [bind]. rewrite interp_igo in IH2. rewrite IH2. reflexivity.
Qed.

(** an option's value may refer to other options of its section, at most ten deep *)
Theorem C79_references m o v r : NoDup (map fst m) -> In (o, v) m -> expands m 10 v r -> opt_get m o = Ok (Some r).
Proof. intros ND I E. unfold opt_get. rewrite (in_sfind ND I), (interp_expands ND E). reflexivity. Qed.
Print Assumptions C79_references.
Example C79_references_nonvacuous :
  let m := [("region", "us"); ("host", "%(REGION)s.example"); ("endpoint", "https://%(host)s/x")] in
  expands m 10 "https://%(host)s/x" "https://us.example/x" /\ opt_get m "endpoint" = Ok (Some "https://us.example/x").
Proof.
  intros m. assert (PF : forall v, existsb (Ascii.eqb "%") (list_ascii_of_string v) = false -> percent_free v).
  { intros v H HI. apply (fun a b => eq_true_false_abs _ a b) with (2 := H). apply existsb_exists. exists "%"%char. split; [exact HI|reflexivity]. }
  assert (LO : forall n n', lower n = n' -> lowered n n').
  { intros n n' <-. unfold lowered. induction n as [|c n IH]; cbn [lower list_ascii_of_string]; constructor; [|exact IH].
    destruct (low_table c) as [(d & I & E)|[N E]]; rewrite E; auto. }
  assert (E : expands m 10 "https://%(host)s/x" "https://us.example/x").
  { apply (@ex_ref m 9 "https://" "host" "host" "%(REGION)s.example" "/x" "us.example" "/x"); try (apply PF; reflexivity); try discriminate.
    - cbn. intuition discriminate.
    - apply LO. reflexivity.
    - cbn. tauto.
    - apply (@ex_ref m 8 "" "REGION" "region" "us" ".example" "us" ".example"); try (apply PF; reflexivity); try discriminate.
      + cbn. intuition discriminate.
      + apply LO. reflexivity.
      + cbn. tauto.
      + apply ex_plain, PF. reflexivity.
      + apply ex_plain, PF. reflexivity.
    - apply ex_plain, PF. reflexivity. }
  split; [exact E|]. apply (@C79_references m "endpoint" "https://%(host)s/x"); [cbn; repeat constructor; cbn; intuition discriminate|cbn; tauto|exact E].
Qed.

(** a reference to an option that is not there, an empty one, or a single percent sign makes the remote's section unreadable *)
Theorem C79_bad_references m o pre post c n : NoDup (map fst m) -> percent_free pre ->
  (c <> "%"%char -> c <> "("%char -> In (o, (pre ++ "%" ++ String c post)%string) m -> opt_get m o = Err OtherError) /\
  (In (o, (pre ++ "%()s" ++ post)%string) m -> opt_get m o = Err OtherError) /\
  (~ In ")"%char (list_ascii_of_string n) -> (forall n' w, lowered n n' -> ~ In (n', w) m) -> In (o, (pre ++ "%(" ++ n ++ ")s" ++ post)%string) m ->
     opt_get m o = Err OtherError).
Proof.
  intros ND HP. split; [|split].
  - intros C1 C2 I. unfold opt_get. rewrite (in_sfind ND I), interp_pre by exact HP.
    replace (interp 10 m ("%" ++ String c post)) with (@Err string OtherError); [reflexivity|].
    destruct c as [[] [] [] [] [] [] [] []]; try reflexivity; congruence.
  - intros I. unfold opt_get. rewrite (in_sfind ND I), interp_pre by exact HP. reflexivity.
  - intros NP HN I. unfold opt_get. rewrite (in_sfind ND I), interp_pre by exact HP.
    change ("%(" ++ n ++ ")s" ++ post)%string with (String "%" (String "(" (n ++ ")s" ++ post))). rewrite interp_igo.
    change (igo 9 m None (String "%" (String "(" (n ++ ")s" ++ post)))) with (igo 9 m (Some "") (n ++ ")s" ++ post)). rewrite igo_name by exact NP. cbn [append].
    change (igo 9 m (Some n) (String ")" (String "s" post))) with
      (if String.eqb n "" then Err OtherError
       else match sfind (lower n) m with
            | None => Err OtherError
            | Some v => bind (interp 9 m v) (fun a => bind (igo 9 m None post) (fun t => Ok (a ++ t)%string))
            end).
    destruct (String.eqb n ""); [reflexivity|]. destruct (sfind (lower n) m) as [w|] eqn:E; [|reflexivity]. exfalso.
    apply (HN (lower n) w); [|apply sfind_in; exact E]. clear. unfold lowered. induction n as [|c n IH]; cbn [lower list_ascii_of_string]; constructor; [|exact IH].
    destruct (low_table c) as [(d & I & E)|[N E]]; rewrite E; auto.
Qed.
Print Assumptions C79_bad_references.

(** ** Where the property fails *)
(** a machine with one configuration file *)
Definition machine (c : rawcfg) : env := mkEnv None None ["home"; "u"] (fun p => if list_eq_dec string_dec p ["home"; "u"; ".config"; "rclone"; "rclone.conf"] then true else false) (fun _ => true) (fun _ => c).

(** FINDING: an endpoint whose host name starts with "http" is taken for a URL; it is passed on without a protocol *)
Theorem C79_http_host_refuted host : let s := ("http" ++ host)%string in percent_free s ->
  exists c, open_remote (machine [("r", [("type", "s3"); ("endpoint", s)])]) None "r" = Ok c /\ c_endpoint c = Some s.
Proof.
  intros s HF. unfold open_remote, read_rclone_config. change (config_path (machine _)) with (Some ["home"; "u"; ".config"; "rclone"; "rclone.conf"]). cbn iota.
  cbn [text machine]. rewrite read_config_plain.
  - cbn [bind]. unfold connect. cbn [map fst snd sfind]. cbn -[endpoint_url s]. eexists. split; [reflexivity|]. cbn [c_endpoint]. unfold endpoint_url.
    replace (String.prefix "http" s) with true by (symmetry; apply prefix_app). rewrite andb_false_r. reflexivity.
  - intros n m [E|[]] k v HI. inversion E; subst. destruct HI as [H|[H|[]]]; inversion H; subst; [|exact HF]. intros HI. cbn in HI. intuition discriminate.
Qed.
Print Assumptions C79_http_host_refuted.

(** FINDING: rclone takes the values as they are, configparser does not: a percent sign in a value, of any section, makes every
    remote unusable, and two of them silently become one *)
Theorem C79_percent_refuted :
  (forall c, open_remote (machine [("r", [("type", "s3"); ("access_key_id", "k"); ("secret_access_key", "abc")]); ("other", [("type", "ftp"); ("endpoint", "50%off")])]) None "r" <> Ok c) /\
  exists c, open_remote (machine [("r", [("type", "s3"); ("secret_access_key", "a%%b")])]) None "r" = Ok c /\ c_secret c = Some "a%b".
Proof. split; [intros c; vm_compute; discriminate|]. eexists. split; vm_compute; reflexivity. Qed.
Print Assumptions C79_percent_refuted.

(** FINDING: whatever the configuration says, the certificate of the endpoint is not verified *)
Theorem C79_unverified_refuted e o remote c : open_remote e o remote = Ok c -> c_verify c = false.
Proof.
  unfold open_remote. destruct (match o with Some c => Ok c | None => read_rclone_config e end) as [cfg|]; [|discriminate]. cbn [bind]. unfold connect.
  destruct (sfind remote cfg) as [en|]; [|discriminate]. destruct (en_type en); [|discriminate]. destruct (String.eqb _ _); [|discriminate].
  intros H. inversion H. reflexivity.
Qed.
Print Assumptions C79_unverified_refuted.

Example C79_nonvacuous :
  let c := [("coolstore", [("type", "s3"); ("provider", "Other"); ("access_key_id", "k"); ("secret_access_key", "sec"); ("region", "us-east-1"); ("endpoint", "pdx.s8k.io")]);
            ("web", [("type", "http")])] in
  sane (machine c) /\ plain c /\ config_path (machine c) = Some ["home"; "u"; ".config"; "rclone"; "rclone.conf"] /\
  open_remote (machine c) None "coolstore" = Ok (mkConn false (Some "k") (Some "sec") (Some "https://pdx.s8k.io") false (Some "us-east-1")) /\
  open_remote (machine c) None "nope" = Err ValueError /\ open_remote (machine c) None "web" = Err OtherError.
Proof.
  split; [split; intros x H; discriminate|]. split; [|split; [|split; [|split]]; vm_compute; reflexivity].
  split; [cbn; repeat constructor; cbn; intuition discriminate|].
  assert (PF : forall v, existsb (Ascii.eqb "%") (list_ascii_of_string v) = false -> percent_free v).
  { intros v H HI. apply (fun a b => eq_true_false_abs _ a b) with (2 := H). apply existsb_exists. exists "%"%char. split; [exact HI|reflexivity]. }
  intros n m [E|[E|[]]]; inversion E; subst; clear E.
  - split; [cbn; repeat constructor; cbn; intuition discriminate|]. split.
    + intros k v HI. apply PF. cbn in HI. repeat (destruct HI as [HI|HI]; [inversion HI; subst; reflexivity|]). contradiction.
    + intros s HI. cbn in HI. repeat (destruct HI as [HI|HI]; [inversion HI; subst|]); [right; left; split; [discriminate|intros h H; discriminate]|contradiction].
  - split; [cbn; repeat constructor; cbn; intuition discriminate|]. split.
    + intros k v HI. apply PF. cbn in HI. repeat (destruct HI as [HI|HI]; [inversion HI; subst; reflexivity|]). contradiction.
    + intros s HI. cbn in HI. destruct HI as [HI|HI]; [inversion HI|contradiction].
Qed.
