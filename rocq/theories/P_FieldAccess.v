(** C44 Field access expressions. *)
From Coq Require Import String Ascii ZArith Lia.
From Verif Require Import Base FieldAccess.
Local Open Scope string_scope.
Local Open Scope list_scope.
Local Open Scope nat_scope.

(** Specification: [at_path v path r]: following the path from v leads to r *)
Inductive at_path : value -> list string -> value -> Prop :=
| at_here v : at_path v [] v
| at_key m k v path r : lookup k m = Some v -> at_path v path r -> at_path (VDict m) (k :: path) r
| at_index l k i v path r : int_of_text k = Some i -> (0 <= i)%Z -> nth_error l (Z.to_nat i) = Some v ->
    at_path v path r -> at_path (VList l) (k :: path) r
| at_index_back l k i v path r : int_of_text k = Some (- i)%Z -> (0 < i <= Z.of_nat (length l))%Z ->
    nth_error l (length l - Z.to_nat i) = Some v -> at_path v path r -> at_path (VList l) (k :: path) r.

(** ... where a list index is a decimal number, possibly with a sign *)
Definition numeral_chars : list ascii := ["0"; "1"; "2"; "3"; "4"; "5"; "6"; "7"; "8"; "9"]%char.
Fixpoint digits_value (ds : list nat) : nat :=
  match ds with [] => 0 | d :: ds' => d * 10 ^ length ds' + digits_value ds' end.
(** [s] is written with the digits [ds] *)
Definition written (s : string) (ds : list nat) : Prop :=
  ds <> [] /\ Forall2 (fun c d => nth_error numeral_chars d = Some c) (list_ascii_of_string s) ds.

Lemma digit_spec c d : digit c = Some d <-> nth_error numeral_chars d = Some c.
Proof.
  split.
  - destruct c as [b0 b1 b2 b3 b4 b5 b6 b7]. destruct b0, b1, b2, b3, b4, b5, b6, b7; vm_compute; intros E; try discriminate; injection E as <-; reflexivity.
  - intros E. assert (d < 10) by (change 10 with (length numeral_chars); apply nth_error_Some; congruence).
    do 10 (destruct d as [|d]; [cbn in E; injection E as <-; reflexivity|]). lia.
Qed.

Lemma digits_spec s : forall acc n, digits acc s = Some n <->
  exists ds, Forall2 (fun c d => nth_error numeral_chars d = Some c) (list_ascii_of_string s) ds /\ n = acc * 10 ^ length ds + digits_value ds.
Proof.
  induction s as [|c s IH]; intros acc n; cbn [digits list_ascii_of_string].
  - split.
    + intros [= <-]. exists []. split; [constructor|cbn; lia].
    + intros (ds & F & ->). inversion F; subst. cbn. f_equal. lia.
  - split.
    + destruct (digit c) as [d|] eqn:E; [|discriminate]. intros H. apply IH in H. destruct H as (ds & F & ->). exists (d :: ds). split; [constructor; [apply digit_spec; exact E|exact F]|].
      cbn [length digits_value]. rewrite Nat.pow_succ_r'. lia.
    + intros (ds & F & ->). inversion F as [|? d ? ds' F1 F2]; subst. apply digit_spec in F1. rewrite F1. apply IH. exists ds'. split; [exact F2|].
      cbn [length digits_value]. rewrite Nat.pow_succ_r'. lia.
Qed.

Lemma nat_of_text_spec s n : nat_of_text s = Some n <-> exists ds, written s ds /\ n = digits_value ds.
Proof.
  unfold nat_of_text, written. destruct s as [|c s].
  - split; [discriminate|]. intros (ds & [NE F] & _). inversion F; subst. congruence.
  - rewrite digits_spec. split; intros (ds & H).
    + destruct H as [F ->]. exists ds. split; [|lia]. split; [|exact F]. inversion F; discriminate.
    + destruct H as [[_ F] ->]. exists ds. split; [exact F|lia].
Qed.

Theorem C44_numbers s z : int_of_text s = Some z <->
  (exists ds, written s ds /\ z = Z.of_nat (digits_value ds)) \/
  (exists t ds, s = String "+" t /\ written t ds /\ z = Z.of_nat (digits_value ds)) \/
  (exists t ds, s = String "-" t /\ written t ds /\ z = (- Z.of_nat (digits_value ds))%Z).
Proof.
  assert (P : forall z s, option_map Z.of_nat (nat_of_text s) = Some z <-> exists ds, written s ds /\ z = Z.of_nat (digits_value ds)).
  { intros z' s'. destruct (nat_of_text s') as [n|] eqn:E; cbn [option_map].
    - apply nat_of_text_spec in E. destruct E as (ds & W & ->). split; [intros [= <-]; eauto|].
      intros (ds' & W' & ->). assert (nat_of_text s' = Some (digits_value ds) /\ nat_of_text s' = Some (digits_value ds')) as [A B] by (split; apply nat_of_text_spec; eauto). congruence.
    - split; [discriminate|]. intros (ds & W & ->). assert (nat_of_text s' = Some (digits_value ds)) by (apply nat_of_text_spec; eauto). congruence. }
  assert (Ng : forall z s, option_map (fun n => Z.opp (Z.of_nat n)) (nat_of_text s) = Some z <-> exists ds, written s ds /\ z = (- Z.of_nat (digits_value ds))%Z).
  { intros z' s'. destruct (nat_of_text s') as [n|] eqn:E; cbn [option_map].
    - apply nat_of_text_spec in E. destruct E as (ds & W & ->). split; [intros [= <-]; eauto|].
      intros (ds' & W' & ->). assert (nat_of_text s' = Some (digits_value ds) /\ nat_of_text s' = Some (digits_value ds')) as [A B] by (split; apply nat_of_text_spec; eauto). congruence.
    - split; [discriminate|]. intros (ds & W & ->). assert (nat_of_text s' = Some (digits_value ds)) by (apply nat_of_text_spec; eauto). congruence. }
  assert (NS : forall c t ds, (c = "+" \/ c = "-")%char -> ~ written (String c t) ds).
  { intros c t ds H [_ F]. cbn [list_ascii_of_string] in F. inversion F as [|? d ? ds' F1 F2]; subst. apply digit_spec in F1. destruct H as [-> | ->]; discriminate. }
  destruct s as [|c t].
  - cbn [int_of_text nat_of_text option_map]. split; [discriminate|]. intros [(ds & [NE F] & _)|[(t & ds & E & _)|(t & ds & E & _)]]; try discriminate. inversion F; subst. congruence.
  - destruct (Ascii.ascii_dec c "-") as [->|Nm]; [|destruct (Ascii.ascii_dec c "+") as [->|Np]].
    + change (int_of_text (String "-" t)) with (option_map (fun n => Z.opp (Z.of_nat n)) (nat_of_text t)). rewrite Ng. split.
      * intros (ds & W & ->). right. right. eauto.
      * intros [(ds & W & _)|[(t' & ds & E & _)|(t' & ds & E & W & ->)]]; [apply NS in W; [contradiction|auto]|discriminate|]. injection E as <-. eauto.
    + change (int_of_text (String "+" t)) with (option_map Z.of_nat (nat_of_text t)). rewrite P. split.
      * intros (ds & W & ->). right. left. eauto.
      * intros [(ds & W & _)|[(t' & ds & E & W & ->)|(t' & ds & E & _)]]; [apply NS in W; [contradiction|auto]| |discriminate]. injection E as <-. eauto.
    + assert (E : int_of_text (String c t) = option_map Z.of_nat (nat_of_text (String c t))).
      { clear - Nm Np. destruct c as [[][][][][][][][]]; try reflexivity; exfalso; (apply Nm; reflexivity) || (apply Np; reflexivity). }
      rewrite E, P. split; [intros H; left; exact H|]. intros [H|[(t' & ds & X & _)|(t' & ds & X & _)]]; [exact H| |]; injection X as -> _; congruence.
Qed.
Print Assumptions C44_numbers.
Example C44_numbers_example : int_of_text "-170" = Some (-170)%Z /\ written "170" [1; 7; 0] /\ digits_value [1; 7; 0] = 170.
Proof. split; [reflexivity|]. split; [split; [discriminate|]; cbn; repeat (apply Forall2_cons; [reflexivity|]); apply Forall2_nil|reflexivity]. Qed.

Lemma list_index_spec l i v : list_index l i = Some v <->
  (exists n, i = Z.of_nat n /\ nth_error l n = Some v) \/
  (exists n, i = (- Z.of_nat n)%Z /\ 0 < n <= length l /\ nth_error l (length l - n) = Some v).
Proof.
  unfold list_index. destruct (Z.leb_spec 0 i).
  - split.
    + intros N. left. exists (Z.to_nat i). split; [lia|exact N].
    + intros [(n & -> & N)|(n & -> & HN & N)]; [rewrite Nat2Z.id; exact N|lia].
  - destruct (Z.leb_spec 0 (i + Z.of_nat (length l))).
    + split.
      * intros N. right. exists (Z.to_nat (- i)). repeat split; try lia. rewrite <- N. f_equal. lia.
      * intros [(n & -> & N)|(n & -> & HN & N)]; [lia|]. rewrite <- N. f_equal. lia.
    + split; [discriminate|]. intros [(n & -> & N)|(n & -> & HN & N)]; lia.
Qed.

(** nested access follows the path; there is a result exactly if the path exists *)
Theorem C44_nested_access v path r : access1 v path = FOk r <-> at_path v path r.
Proof.
  split.
  - revert v. induction path as [|k path IH]; intros v; cbn [access1]; [intros [= <-]; constructor|].
    destruct v as [m|l|]; [| |discriminate].
    + destruct (lookup k m) eqn:E; [|discriminate]. intros H. econstructor; eauto.
    + destruct (int_of_text k) as [i|] eqn:E; [|discriminate]. destruct (list_index l i) as [w|] eqn:EL; [|discriminate].
      intros H. apply list_index_spec in EL. destruct EL as [(n & -> & N)|(n & -> & HN & N)].
      * eapply at_index; eauto; [lia|]. rewrite Nat2Z.id. exact N.
      * eapply at_index_back with (i := Z.of_nat n); eauto; [lia|]. rewrite Nat2Z.id. exact N.
  - induction 1 as [v|m k v path r E H IH|l k i v path r E HI N H IH|l k i v path r E HI N H IH]; cbn [access1]; [reflexivity|rewrite E; exact IH| |].
    + rewrite E. replace (list_index l i) with (Some v); [exact IH|]. symmetry. apply list_index_spec. left. exists (Z.to_nat i). split; [lia|exact N].
    + rewrite E. replace (list_index l (- i)) with (Some v); [exact IH|]. symmetry. apply list_index_spec. right. exists (Z.to_nat i). repeat split; try lia. exact N.
Qed.
Print Assumptions C44_nested_access.

Lemma access1_swallowed v f e : access1 v f = FErr e -> swallowed e = true.
Proof.
  revert v. induction f as [|k f IH]; intros v; cbn [access1]; [discriminate|].
  destruct v as [m|l|]; [destruct (lookup k m); [apply IH|intros [= <-]; reflexivity]| |intros [= <-]; reflexivity].
  destruct (int_of_text k); [|intros [= <-]; reflexivity]. destruct (list_index l z); [apply IH|intros [= <-]; reflexivity].
Qed.

(** the first alternative that exists is returned *)
Theorem C44_first_alternative v alts r :
  access v alts = FOk r <->
  exists before f after, alts = before ++ f :: after /\ at_path v f r /\ forall g x, In g before -> ~ at_path v g x.
Proof.
  split.
  - induction alts as [|f alts IH]; cbn [access]; [discriminate|]. destruct alts as [|g alts].
    + intros H. exists [], f, []. split; [reflexivity|]. split; [apply C44_nested_access; exact H|intros ? ? []].
    + destruct (access1 v f) as [x|e] eqn:E.
      * intros [= <-]. exists [], f, (g :: alts). split; [reflexivity|]. split; [apply C44_nested_access; exact E|intros ? ? []].
      * rewrite (access1_swallowed E). intros H. destruct (IH H) as (b & f' & a & HA & HP & HB).
        exists (f :: b), f', a. rewrite HA. split; [reflexivity|]. split; [exact HP|].
        intros h x [<-|I]; [rewrite <- C44_nested_access, E; discriminate|]. exact (HB h x I).
  - intros (b & f & a & -> & HP & HB). apply C44_nested_access in HP. induction b as [|h b IH].
    + cbn [app access]. destruct a; [exact HP|]. rewrite HP. reflexivity.
    + cbn [app]. assert (exists e, access1 v h = FErr e) as [e E].
      { destruct (access1 v h) as [x|e] eqn:E; [|eauto]. exfalso. apply C44_nested_access in E. exact (HB h x (or_introl eq_refl) E). }
      cbn [access]. destruct (b ++ f :: a) as [|y l] eqn:EB; [destruct b; discriminate|]. rewrite E, (access1_swallowed E).
      apply IH. intros g x I. apply HB. right. exact I.
Qed.
Print Assumptions C44_first_alternative.

(** a missing field is an error, and only then there is one *)
Theorem C44_missing_is_error v alts :
  (exists e, access v alts = FErr e) <-> (forall f r, In f alts -> ~ at_path v f r).
Proof.
  split.
  - intros [e E] f r I HP.
    assert (exists x, access v alts = FOk x) as [x X]; [|congruence]. clear E. induction alts as [|g alts IH]; [destruct I|].
    destruct (access1 v g) as [y|e'] eqn:EG.
    + exists y. cbn [access]. destruct alts; [exact EG|]. rewrite EG. reflexivity.
    + destruct I as [->|I]; [apply C44_nested_access in HP; congruence|]. destruct (IH I) as [x X]. exists x.
      cbn [access]. destruct alts; [destruct I|]. rewrite EG, (access1_swallowed EG). exact X.
  - intros H. destruct (access v alts) as [r|e] eqn:E; [|eauto]. exfalso. apply C44_first_alternative in E.
    destruct E as (b & f & a & -> & HP & _). apply (H f r); [apply in_elt|exact HP].
Qed.
Print Assumptions C44_missing_is_error.

(** ** The textual form.  A path is written name[key]...[key], alternatives are separated by commas *)
Definition plain (s : string) : Prop := s <> "" /\ forall c, In c (list_ascii_of_string s) -> c <> "["%char /\ c <> "]"%char /\ c <> ","%char.
Fixpoint show_keys (ks : list string) : string :=
  match ks with [] => "" | k :: ks' => ("[" ++ k ++ "]" ++ show_keys ks')%string end.
Definition show_path (p : list string) : string :=
  match p with [] => "" | n :: ks => (n ++ show_keys ks)%string end.
Definition show_alts (alts : list (list string)) : string := String.concat "," (map show_path alts).

Definition noc (c : ascii) (s : string) : Prop := ~ In c (list_ascii_of_string s).

Lemma plain_noc s : plain s -> noc "[" s /\ noc "]" s /\ noc "," s.
Proof. intros [_ H]. repeat split; intros I; apply H in I; destruct I as (? & ? & ?); congruence. Qed.

Lemma las_app a b : list_ascii_of_string (a ++ b)%string = list_ascii_of_string a ++ list_ascii_of_string b.
Proof. induction a as [|c a IH]; cbn; [reflexivity|]. rewrite IH. reflexivity. Qed.

Lemma split_on_nonnil c s : split_on c s <> [].
Proof. destruct s as [|d s]; cbn; [discriminate|]. destruct (Ascii.eqb d c); [discriminate|]. destruct (split_on c s); discriminate. Qed.

Lemma split_on_none c s : noc c s -> split_on c s = [s].
Proof.
  induction s as [|d s IH]; intros H; [reflexivity|]. cbn [split_on]. destruct (Ascii.eqb d c) eqn:E.
  - apply Ascii.eqb_eq in E. subst. exfalso. apply H. left. reflexivity.
  - rewrite IH; [reflexivity|]. intros I. apply H. right. exact I.
Qed.

Lemma split_on_app c a b : noc c a -> split_on c (a ++ String c b)%string = a :: split_on c b.
Proof.
  induction a as [|d a IH]; intros H; cbn [append split_on]; [rewrite Ascii.eqb_refl; reflexivity|]. destruct (Ascii.eqb d c) eqn:E.
  - apply Ascii.eqb_eq in E. subst. exfalso. apply H. left. reflexivity.
  - rewrite IH; [reflexivity|]. intros I. apply H. right. exact I.
Qed.

Lemma split_on_concat c (l : list string) : l <> [] -> Forall (noc c) l -> split_on c (String.concat (String c "") l) = l.
Proof.
  induction l as [|x l IH]; [congruence|]. intros _ H. inversion H; subst. destruct l as [|y l].
  - cbn. apply split_on_none. assumption.
  - change (String.concat (String c "") (x :: y :: l)) with (x ++ String c (String.concat (String c "") (y :: l)))%string.
    rewrite split_on_app by assumption. f_equal. apply IH; [discriminate|assumption].
Qed.

Lemma noc_app c a b : noc c (a ++ b)%string <-> noc c a /\ noc c b.
Proof. unfold noc. rewrite las_app, in_app_iff. tauto. Qed.

Lemma plain_cons c s : plain (String c s) -> Ascii.eqb c "[" = false /\ Ascii.eqb c "]" = false /\ Ascii.eqb c "," = false /\ (s = "" \/ plain s).
Proof.
  intros [_ H]. destruct (H c (or_introl eq_refl)) as (A & B & C). rewrite !Ascii.eqb_neq. repeat split; auto.
  destruct s as [|d s]; [left; reflexivity|right]. split; [discriminate|]. intros e I. apply H. right. exact I.
Qed.

Lemma matches_name n t b : plain n -> matches_from (InName b) (n ++ t)%string = matches_from (InName true) t.
Proof.
  revert b. induction n as [|c n IH]; intros b H; [destruct H; congruence|]. apply plain_cons in H. destruct H as (A & B & _ & D).
  cbn [append matches_from]. rewrite A, B. destruct D as [->|D]; [reflexivity|apply IH; exact D].
Qed.

Lemma matches_key k t b : plain k -> matches_from (InAccess b) (k ++ String "]" t)%string = matches_from Closed t.
Proof.
  revert b. induction k as [|c k IH]; intros b H; [destruct H; congruence|]. apply plain_cons in H. destruct H as (A & B & _ & D).
  cbn [append matches_from]. rewrite A, B. destruct D as [->|D]; [reflexivity|apply IH; exact D].
Qed.

Lemma matches_keys ks : Forall plain ks -> matches_from Closed (show_keys ks) = true.
Proof. induction 1 as [|k ks H _ IH]; [reflexivity|]. cbn [show_keys append matches_from]. rewrite Ascii.eqb_refl, matches_key; assumption. Qed.

Lemma field_re_show n ks : plain n -> Forall plain ks -> field_re_matches (n ++ show_keys ks) = true.
Proof.
  intros HN HK. unfold field_re_matches. rewrite matches_name by exact HN. destruct HK as [|k ks H HK]; [reflexivity|].
  cbn [show_keys append matches_from]. rewrite Ascii.eqb_refl. cbn [andb]. rewrite matches_key by exact H. apply matches_keys. exact HK.
Qed.

Lemma name_access_show n ks : plain n -> name_and_access (n ++ show_keys ks)%string = (n, show_keys ks).
Proof.
  intros H. assert (E : name_and_access (show_keys ks) = ("", show_keys ks)) by (destruct ks; reflexivity).
  induction n as [|c n IH]; [destruct H; congruence|]. apply plain_cons in H. destruct H as (A & B & _ & D).
  cbn [append name_and_access]. unfold is_bracket. rewrite A, B. cbn [orb]. destruct D as [->|D]; [cbn [append]; rewrite E; reflexivity|].
  rewrite IH by exact D. reflexivity.
Qed.

Lemma split_co_step d s : Ascii.eqb d "]" = false -> split_close_open (String d s) = cons_first d (split_close_open s).
Proof. intros H. cbn [split_close_open]. rewrite H. destruct s; reflexivity. Qed.

Lemma split_co_key k t : plain k ->
  split_close_open (k ++ "]" ++ t)%string = match split_close_open ("]" ++ t)%string with x :: r => (k ++ x)%string :: r | [] => [k] end.
Proof.
  induction k as [|c k IH]; intros H; [destruct H; congruence|]. apply plain_cons in H. destruct H as (A & B & _ & D).
  cbn [append]. rewrite split_co_step by exact B. change (String "]" t) with ("]" ++ t)%string. destruct D as [->|D].
  - cbn [append]. destruct (split_close_open (String "]" t)); reflexivity.
  - rewrite IH by exact D. destruct (split_close_open ("]" ++ t)%string); reflexivity.
Qed.

Fixpoint pieces (ks : list string) : list string :=
  match ks with [] => [] | [k] => [(k ++ "]")%string] | k :: ks' => k :: pieces ks' end.

Lemma append_nil s : (s ++ "")%string = s.
Proof. induction s; cbn; congruence. Qed.

Lemma split_co_show ks : forall k, plain k -> Forall plain ks -> split_close_open (k ++ "]" ++ show_keys ks)%string = pieces (k :: ks).
Proof.
  induction ks as [|k2 ks IH]; intros k H HK; rewrite split_co_key by exact H.
  - reflexivity.
  - inversion HK; subst. change ("]" ++ show_keys (k2 :: ks))%string with (String "]" (String "[" (k2 ++ "]" ++ show_keys ks)))%string.
    assert (E : split_close_open (String "]" (String "[" (k2 ++ "]" ++ show_keys ks)%string)) = "" :: split_close_open (k2 ++ "]" ++ show_keys ks)%string) by reflexivity.
    rewrite E, IH by assumption. rewrite append_nil. reflexivity.
Qed.

Lemma lstrip_plain k t : plain k -> lstrip_open (k ++ t)%string = (k ++ t)%string.
Proof. destruct k as [|c k]; [intros [? ?]; congruence|]. intros H. apply plain_cons in H. cbn. destruct H as (-> & _). reflexivity. Qed.

Lemma rstrip_plain k : plain k -> rstrip_close k = k.
Proof.
  induction k as [|c k IH]; [reflexivity|]. intros H. apply plain_cons in H. destruct H as (_ & B & _ & D). cbn.
  destruct D as [->|D]; [cbn; rewrite B; reflexivity|]. rewrite IH by exact D. destruct k; [destruct D; congruence|reflexivity].
Qed.

Lemma rstrip_plain_close k : plain k -> rstrip_close (k ++ "]")%string = k.
Proof.
  induction k as [|c k IH]; [reflexivity|]. intros H. apply plain_cons in H. destruct H as (_ & B & _ & D). cbn.
  destruct D as [->|D]; [cbn; rewrite B; reflexivity|]. rewrite IH by exact D. destruct k; [destruct D; congruence|reflexivity].
Qed.

Lemma strip_pieces ks : Forall plain ks ->
  map (fun a => rstrip_close (lstrip_open a)) (filter (fun a => negb (String.eqb a "")) (pieces ks)) = ks.
Proof.
  induction 1 as [|k ks H HK IH]; [reflexivity|]. assert (NE : String.eqb k "" = false) by (apply String.eqb_neq; apply H).
  destruct ks as [|k2 ks].
  - cbn [pieces filter]. assert (String.eqb (k ++ "]")%string "" = false) as -> by (apply String.eqb_neq; destruct k; discriminate).
    cbn [negb map]. rewrite lstrip_plain by exact H. rewrite rstrip_plain_close by exact H. reflexivity.
  - change (pieces (k :: k2 :: ks)) with (k :: pieces (k2 :: ks)). cbn [filter]. rewrite NE. cbn [negb map]. rewrite IH. f_equal.
    pose proof (lstrip_plain "" H) as L. rewrite append_nil in L. rewrite L. apply rstrip_plain. exact H.
Qed.

Lemma split_option_show fd n ks : plain n -> Forall plain ks -> split_option fd (n ++ show_keys ks)%string = n :: ks.
Proof.
  intros HN HK. unfold split_option. rewrite field_re_show, name_access_show by assumption. f_equal.
  destruct HK as [|k ks H HK]; [reflexivity|]. cbn [show_keys append].
  rewrite split_co_step by reflexivity. change (String "]" (show_keys ks)) with ("]" ++ show_keys ks)%string. rewrite split_co_show by assumption.
  pose proof (strip_pieces (Forall_cons _ H HK)) as S. destruct ks as [|k2 ks].
  - cbn [pieces cons_first filter String.eqb negb map] in *. destruct (negb (String.eqb (k ++ "]") "")) eqn:E.
    + cbn [map lstrip_open] in *. exact S.
    + apply Bool.negb_false_iff, String.eqb_eq in E. destruct k; discriminate.
  - change (pieces (k :: k2 :: ks)) with (k :: pieces (k2 :: ks)) in *. cbn [cons_first filter] in *.
    assert (NE : String.eqb k "" = false) by (apply String.eqb_neq; apply H). rewrite NE in S. cbn [String.eqb negb map] in *. exact S.
Qed.

Lemma show_keys_noc ks : Forall plain ks -> noc "," (show_keys ks).
Proof.
  induction 1 as [|k ks H _ IH]; [intros []|]. cbn [show_keys]. apply noc_app. split; [intros [?|[]]; discriminate|].
  apply noc_app. split; [apply (plain_noc H)|]. apply noc_app. split; [intros [?|[]]; discriminate|exact IH].
Qed.

(** parsing a written description gives back the alternatives, with their paths *)
Theorem C44_parse_description alts :
  alts <> [] -> (forall p, In p alts -> p <> [] /\ forall s, In s p -> plain s) ->
  split_field_access (show_alts alts) = alts.
Proof.
  intros NE H. unfold split_field_access. generalize (show_alts alts) at 1 as fd. intros fd. unfold show_alts. rewrite split_on_concat.
  - rewrite map_map. induction alts as [|p alts IH]; [reflexivity|]. cbn [map]. f_equal.
    + destruct (H p (or_introl eq_refl)) as [N PL]. destruct p as [|n ks]; [congruence|]. apply split_option_show; [apply PL; left; reflexivity|].
      apply Forall_forall. intros k I. apply PL. right. exact I.
    + destruct alts as [|q alts]; [reflexivity|]. apply IH; [discriminate|]. intros x I. apply H. right. exact I.
  - destruct alts; [congruence|discriminate].
  - apply Forall_map, Forall_forall. intros p I. destruct (H p I) as [N PL]. destruct p as [|n ks]; [congruence|]. cbn [show_path].
    apply noc_app. split; [apply plain_noc, PL; left; reflexivity|]. apply show_keys_noc, Forall_forall. intros k J. apply PL. right. exact J.
Qed.
Print Assumptions C44_parse_description.

(** *** Every description: which alternatives are read as paths and which are not *)
Definition unbracketed (s : string) : Prop := noc "[" s /\ noc "]" s.

Lemma plain_of s : s <> "" -> noc "," s -> unbracketed s -> plain s.
Proof. intros N C [A B]. split; [exact N|]. intros c I. repeat split; intros ->; contradiction. Qed.

Lemma matches_access_inv s : forall b, matches_from (InAccess b) s = true ->
  exists k t, s = (k ++ String "]" t)%string /\ unbracketed k /\ (b = true \/ k <> "") /\ matches_from Closed t = true.
Proof.
  induction s as [|c s IH]; intros b; cbn [matches_from]; [discriminate|]. destruct (Ascii.eqb_spec c "]") as [->|N].
  - intros H. apply andb_prop in H. destruct H as [-> H]. exists "", s. split; [reflexivity|]. split; [split; intros []|]. auto.
  - destruct (Ascii.eqb_spec c "[") as [->|N2]; [discriminate|]. intros H. destruct (IH _ H) as (k & t & -> & [U1 U2] & _ & HT).
    exists (String c k), t. split; [reflexivity|]. split; [split; intros [E|I]; [congruence|contradiction|congruence|contradiction]|].
    split; [right; discriminate|exact HT].
Qed.

Lemma matches_closed_inv n : forall s, String.length s <= n -> noc "," s -> matches_from Closed s = true -> exists ks, Forall plain ks /\ s = show_keys ks.
Proof.
  induction n as [|n IH]; intros s L C H.
  - destruct s; [|cbn in L; lia]. exists []. split; [constructor|reflexivity].
  - destruct s as [|c s]; [exists []; split; [constructor|reflexivity]|]. cbn [matches_from] in H.
    destruct (Ascii.eqb_spec c "[") as [->|N]; [|discriminate]. apply matches_access_inv in H. destruct H as (k & t & -> & U & [?|NE] & HT); [discriminate|].
    assert (C' : noc "," (k ++ String "]" t)%string) by (intros I; apply C; right; exact I). apply noc_app in C'. destruct C' as [CK CT].
    destruct (IH t) as (ks & F & ->); [|intros I; apply CT; right; exact I|exact HT|].
    { cbn [String.length] in L. clear - L. assert (forall a b, String.length (a ++ b)%string = String.length a + String.length b) as E.
      { intros a b. induction a as [|x a IHa]; cbn; [reflexivity|]. rewrite IHa. reflexivity. }
      rewrite E in L. cbn [String.length] in L. lia. }
    exists (k :: ks). split; [constructor; [exact (plain_of NE CK U)|exact F]|reflexivity].
Qed.

Lemma matches_name_inv s : forall b, matches_from (InName b) s = true -> noc "," s ->
  exists n ks, s = (n ++ show_keys ks)%string /\ unbracketed n /\ (b = true \/ n <> "") /\ Forall plain ks.
Proof.
  induction s as [|c s IH]; intros b H C; cbn [matches_from] in H.
  - exists "", []. split; [reflexivity|]. split; [split; intros []|]. split; [left; exact H|constructor].
  - destruct (Ascii.eqb_spec c "[") as [->|N].
    + apply andb_prop in H. destruct H as [-> H]. assert (HC : matches_from Closed (String "[" s) = true) by exact H.
      destruct (@matches_closed_inv _ _ (le_n _) C HC) as (ks & F & E). exists "", ks. split; [exact E|]. split; [split; intros []|]. auto.
    + destruct (Ascii.eqb_spec c "]") as [->|N2]; [discriminate|]. destruct (IH _ H) as (n & ks & -> & [U1 U2] & _ & F); [intros I; apply C; right; exact I|].
      exists (String c n), ks. split; [reflexivity|]. split; [split; intros [E|I]; [congruence|contradiction|congruence|contradiction]|].
      split; [right; discriminate|exact F].
Qed.

(** the texts that are read as paths: exactly the written forms of non-empty paths *)
Definition a_path (p : list string) : Prop := p <> [] /\ forall s, In s p -> plain s.

Lemma field_re_iff s : noc "," s -> (field_re_matches s = true <-> exists p, a_path p /\ s = show_path p).
Proof.
  intros C. split.
  - intros H. destruct (@matches_name_inv _ _ H C) as (n & ks & -> & U & [?|NE] & F); [discriminate|]. exists (n :: ks). apply noc_app in C.
    split; [|reflexivity]. split; [discriminate|]. intros x [<-|I]; [apply plain_of; tauto|]. rewrite Forall_forall in F. apply F, I.
  - intros (p & [NE H] & ->). destruct p as [|n ks]; [congruence|]. apply field_re_show; [apply H; left; reflexivity|].
    apply Forall_forall. intros k I. apply H. right. exact I.
Qed.

Lemma split_on_spec c s : String.concat (String c "") (split_on c s) = s /\ Forall (noc c) (split_on c s).
Proof.
  induction s as [|d s [IH1 IH2]]; cbn [split_on]; [split; [reflexivity|constructor; [intros []|constructor]]|]. pose proof (@split_on_nonnil c s) as NN.
  destruct (Ascii.eqb_spec d c) as [->|N].
  - split; [|constructor; [intros []|exact IH2]]. destruct (split_on c s) as [|x r]; [congruence|].
    change (String.concat (String c "") ("" :: x :: r)) with (String c (String.concat (String c "") (x :: r))). rewrite IH1. reflexivity.
  - destruct (split_on c s) as [|x r]; [congruence|]. inversion IH2 as [|? ? HX HR]; subst. split.
    + destruct r as [|y r]; [reflexivity|]. reflexivity.
    + constructor; [intros [E|I]; [congruence|contradiction]|exact HR].
Qed.

(** whatever the description, it is cut at its commas; an alternative that is the written form of a path (a non-empty name
    followed by non-empty keys in brackets) is that path, and any other alternative is replaced by the WHOLE description *)
Theorem C44_parse_any fd :
  exists opts, opts <> [] /\ String.concat "," opts = fd /\ (forall o, In o opts -> noc "," o) /\
    Forall2 (fun o p => (a_path p /\ o = show_path p) \/ ((forall q, a_path q -> o <> show_path q) /\ p = [fd])) opts (split_field_access fd).
Proof.
  exists (split_on "," fd). destruct (split_on_spec "," fd) as [E F]. split; [apply split_on_nonnil|]. split; [exact E|].
  split; [apply Forall_forall, F|]. unfold split_field_access. clear E. induction F as [|o opts C F IH]; [constructor|]. cbn [map]. constructor; [|exact IH].
  pose proof (field_re_iff C) as HR. destruct (field_re_matches o) eqn:EM.
  - destruct (proj1 HR eq_refl) as (p & [NE HP] & ->). left. destruct p as [|n ks]; [congruence|]. cbn [show_path].
    assert (EP : split_option fd (n ++ show_keys ks)%string = n :: ks).
    { apply split_option_show; [apply HP; left; reflexivity|]. apply Forall_forall. intros k I. apply HP. right. exact I. }
    rewrite EP. split; [split; [discriminate|exact HP]|reflexivity].
  - right. split; [|unfold split_option; rewrite EM; reflexivity]. intros q Q ->. assert (false = true) by (apply HR; eauto). discriminate.
Qed.
Print Assumptions C44_parse_any.

(** in particular an empty key does not count as a path *)
Example C44_parse_any_nonvacuous :
  split_field_access "a[]" = [["a[]"]] /\ split_field_access "a[x][],b[y]" = [["a[x][],b[y]"]; ["b"; "y"]] /\ split_field_access "" = [[""]].
Proof. repeat split; reflexivity. Qed.

(** there is always at least one alternative, so the last one (field[-1]) exists *)
Theorem C44_parse_nonempty fd : split_field_access fd <> [] /\ forall p, In p (split_field_access fd) -> p <> [].
Proof.
  unfold split_field_access. split.
  - pose proof (@split_on_nonnil ","%char fd). destruct (split_on "," fd); [congruence|discriminate].
  - intros p I. apply in_map_iff in I. destruct I as (x & <- & _). unfold split_option. destruct (field_re_matches x); [|discriminate].
    destruct (name_and_access x). discriminate.
Qed.
Print Assumptions C44_parse_nonempty.

(** FINDING: an alternative that is not of the form name[key]... is replaced by the WHOLE description,
    not by its own text (line 35), so a literal field name containing a bracket works alone but not as one of several alternatives *)
Theorem C44_malformed_alternative_refuted :
  split_field_access "a]" = [["a]"]] /\ split_field_access "a],b" = [["a],b"]; ["b"]] /\
  access (VDict [("a]", VLit 1)]) (split_field_access "a]") = FOk (VLit 1) /\
  access (VDict [("a]", VLit 1); ("b", VLit 2)]) (split_field_access "a],b") = FOk (VLit 2).
Proof. repeat split; reflexivity. Qed.

Example C44_nonvacuous :
  split_field_access "txt[cap][-1],json[x]" = [["txt"; "cap"; "-1"]; ["json"; "x"]] /\
  access (VDict [("txt", VDict [("cap", VList [VLit 1; VLit 2])])]) (split_field_access "txt[cap][-1],json[x]") = FOk (VLit 2) /\
  access (VDict [("json", VDict [("x", VLit 7)])]) (split_field_access "txt[cap][-1],json[x]") = FOk (VLit 7) /\
  access (VDict []) (split_field_access "txt[cap][-1],json[x]") = FErr FieldAccessError.
Proof. repeat split; reflexivity. Qed.
