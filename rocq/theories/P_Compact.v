(** C78 Error messages name the sample without growing with it. *)
From Coq Require Import String Ascii.
From Verif Require Import Base Compact.
Local Open Scope string_scope.
Local Open Scope list_scope.
Local Open Scope nat_scope.
Notation slen := String.length.

(** ** Specification *)
Section Spec.
  Variable srepr : string -> string.

  (** everything in the value: keys and contents, without limits *)
  Fixpoint everything (v : pyval) : string :=
    match v with
    | PDict m => ("{" ++ commas (map (fun kv => (key_text (fst kv) ++ ": " ++ everything (snd kv))%string) m) ++ "}")%string
    | PList l => ("[" ++ commas (map everything l) ++ "]")%string
    | PStr s => srepr s
    | POther r => r
    end.
End Spec.

(** a condition on all the parts of a value *)
Fixpoint all_parts (KP : pkey -> Prop) (SP : string -> Prop) (OP : string -> Prop) (n : nat) (d : nat) (v : pyval) {struct v} : Prop :=
  match v with
  | PDict m => length m <= n /\ match d with O => False | S d' => fold_right (fun kv P => (KP (fst kv) /\ all_parts KP SP OP n d' (snd kv)) /\ P) True m end
  | PList l => length l <= n /\ match d with O => False | S d' => fold_right (fun x P => all_parts KP SP OP n d' x /\ P) True l end
  | PStr s => SP s
  | POther r => OP r
  end.
(** at most [d] levels deep, at most [n] entries per dictionary or list, strings of at most [len] characters, no key that
    starts with two underscores *)
Definition small (n len d : nat) : pyval -> Prop := all_parts (fun k => dunder k = false) (fun s => slen s <= len) (fun _ => True) n d.

(** keys at most [kl] long and not starting with two underscores, and values that are not strings print at most [ol]
    characters -- at any depth, of any number *)
Fixpoint tame (kl ol : nat) (v : pyval) : Prop :=
  match v with
  | PDict m => fold_right (fun kv P => (dunder (fst kv) = false /\ slen (key_text (fst kv)) <= kl /\ tame kl ol (snd kv)) /\ P) True m
  | PList l => fold_right (fun x P => tame kl ol x /\ P) True l
  | PStr _ => True
  | POther r => slen r <= ol
  end.

(** the longest text there can be *)
Fixpoint bound (n len kl ol d : nat) : nat :=
  let leaf := Nat.max 5 (Nat.max (2 + 10 * (len + 3)) ol) in
  match d with
  | O => leaf
  | S d' => Nat.max leaf (2 + n * (kl + 4 + bound n len kl ol d'))
  end.

(** repr() of a string: quotes and at most ten characters per character *)
Definition repr_like (srepr : string -> string) : Prop := forall s, slen (srepr s) <= 2 + 10 * slen s.

(** ** Proofs *)
Lemma slen_app a b : slen (a ++ b)%string = slen a + slen b.
Proof. induction a; cbn; auto. Qed.

Lemma pyval_ind2 (P : pyval -> Prop) :
  (forall m, Forall (fun kv => P (snd kv)) m -> P (PDict m)) -> (forall l, Forall P l -> P (PList l)) ->
  (forall s, P (PStr s)) -> (forall r, P (POther r)) -> forall v, P v.
Proof.
  intros HD HL HS HO. fix IH 1. intros [m|l|s|r]; [apply HD|apply HL|apply HS|apply HO].
  - induction m as [|[k v] m IHm]; constructor; [apply IH|exact IHm].
  - induction l as [|v l IHl]; constructor; [apply IH|exact IHl].
Qed.

Lemma commas_bound b l : Forall (fun x => slen x + 2 <= b) l -> slen (commas l) <= length l * b.
Proof.
  induction 1 as [|x l H HF IH]; [cbn; lia|]. destruct l as [|y l]; [cbn in *; lia|].
  change (commas (x :: y :: l)) with (x ++ ", " ++ commas (y :: l))%string. rewrite !slen_app. cbn [slen length Nat.mul] in *. lia.
Qed.

Lemma slen_substring n s : slen (String.substring 0 n s) <= n.
Proof. revert s. induction n as [|n IH]; intros [|c s]; cbn; try lia. specialize (IH s). lia. Qed.

Lemma leaf_le n len kl ol d : Nat.max 5 (Nat.max (2 + 10 * (len + 3)) ol) <= bound n len kl ol d.
Proof. destruct d; cbn [bound]; lia. Qed.

Lemma Forall_firstn {X} (P : X -> Prop) n l : Forall P l -> Forall P (firstn n l).
Proof. intros H. revert n. induction H; intros [|n]; cbn; constructor; auto. Qed.

Section Bounded.
  Variables (srepr : string -> string) (n len kl ol : nat).
  Hypothesis HR : repr_like srepr.

  Lemma compact_bound v : forall d, tame kl ol v -> slen (compact srepr n len v d) <= bound n len kl ol d.
  Proof.
    induction v as [m IH|l IH|s|r] using pyval_ind2; intros d HT.
    - destruct d as [|d]; [pose proof (leaf_le n len kl ol 0); cbn [compact slen]; lia|]. cbn [compact]. rewrite !slen_app. cbn [slen].
      set (f := fun kv : pkey * pyval => _).
      assert (F : Forall (fun x => slen x + 2 <= kl + 4 + bound n len kl ol d) (map f m)).
      { cbn [tame] in HT. clear - IH HT. induction m as [|[k v] m IHm]; [constructor|]. cbn [fold_right fst snd] in HT. destruct HT as ((HK1 & HK2 & HV) & HT).
        cbn [map]. constructor; [|apply IHm; [exact (Forall_inv_tail IH)|exact HT]].
        unfold f. cbn [fst snd]. rewrite HK1, !slen_app. pose proof (Forall_inv IH d HV) as B. cbn [snd slen] in *. lia. }
      apply (Forall_firstn n), commas_bound in F. rewrite firstn_length in F.
      assert (Nat.min n (length (map f m)) * (kl + 4 + bound n len kl ol d) <= n * (kl + 4 + bound n len kl ol d)) by (apply Nat.mul_le_mono_r; lia).
      cbn [bound]. lia.
    - destruct d as [|d]; [pose proof (leaf_le n len kl ol 0); cbn [compact slen]; lia|]. cbn [compact]. rewrite !slen_app. cbn [slen].
      assert (F : Forall (fun x => slen x + 2 <= kl + 4 + bound n len kl ol d) (map (fun x => compact srepr n len x d) l)).
      { cbn [tame] in HT. clear - IH HT. induction l as [|v l IHl]; [constructor|]. cbn [fold_right] in HT. destruct HT as (HV & HT).
        cbn [map]. constructor; [|apply IHl; [exact (Forall_inv_tail IH)|exact HT]]. pose proof (Forall_inv IH d HV). lia. }
      apply (Forall_firstn n), commas_bound in F. rewrite firstn_length in F.
      assert (Nat.min n (length (map (fun x => compact srepr n len x d) l)) * (kl + 4 + bound n len kl ol d) <= n * (kl + 4 + bound n len kl ol d)) by (apply Nat.mul_le_mono_r; lia).
      cbn [bound]. lia.
    - cbn [compact]. pose proof (leaf_le n len kl ol d). destruct (len <? slen s) eqn:E.
      + pose proof (HR (String.substring 0 len s ++ "...")%string) as H1. rewrite slen_app in H1. cbn [slen] in H1. pose proof (slen_substring len s). lia.
      + apply Nat.ltb_ge in E. pose proof (HR s). lia.
    - cbn [compact tame] in *. pose proof (leaf_le n len kl ol d). lia.
  Qed.
End Bounded.

(** However deep the value, however many entries and however long its strings: the text has a bounded length, which
    depends on the limits and the lengths of keys and of other printed values only. *)
Theorem C78_bounded srepr n len kl ol v d :
  repr_like srepr -> tame kl ol v -> slen (compact srepr n len v d) <= bound n len kl ol d.
Proof. intros HR HT. apply compact_bound; assumption. Qed.
Print Assumptions C78_bounded.

(** Within the limits everything is shown. *)
Theorem C78_small_shown srepr n len v : forall d, small n len d v -> compact srepr n len v d = everything srepr v.
Proof.
  induction v as [m IH|l IH|s|r] using pyval_ind2; intros d HS; unfold small in *; cbn [all_parts] in HS; cbn [compact everything].
  - destruct HS as [HL HS]. destruct d as [|d]; [contradiction|]. rewrite firstn_all2 by (rewrite map_length; exact HL). do 3 f_equal.
    clear HL. induction m as [|[k v] m IHm]; [reflexivity|]. cbn [fold_right fst snd map] in *. destruct HS as ((HK & HV) & HS). f_equal.
    + rewrite HK. pose proof (Forall_inv IH d HV) as E. cbn [snd] in E. rewrite E. reflexivity.
    + apply IHm; [exact (Forall_inv_tail IH)|exact HS].
  - destruct HS as [HL HS]. destruct d as [|d]; [contradiction|]. rewrite firstn_all2 by (rewrite map_length; exact HL). do 3 f_equal.
    clear HL. induction l as [|v l IHl]; [reflexivity|]. cbn [fold_right map] in *. destruct HS as (HV & HS). f_equal.
    + apply (Forall_inv IH d HV).
    + apply IHl; [exact (Forall_inv_tail IH)|exact HS].
  - replace (len <? slen s) with false by (symmetry; apply Nat.ltb_ge; exact HS). reflexivity.
  - reflexivity.
Qed.
Print Assumptions C78_small_shown.

(** ** What is cut, exactly *)
(** a string is shown up to the limit, then three dots; a list or dictionary too deep is three dots in brackets *)
Theorem C78_cut srepr n len :
  (forall a b d, slen a = len -> b <> "" -> compact srepr n len (PStr (a ++ b)) d = srepr (a ++ "...")%string) /\
  (forall l, compact srepr n len (PList l) 0 = "[...]") /\ (forall m, compact srepr n len (PDict m) 0 = "{...}").
Proof.
  split; [|split; reflexivity]. intros a b d HL HB. cbn [compact].
  replace (len <? slen (a ++ b)) with true by (symmetry; apply Nat.ltb_lt; rewrite slen_app; destruct b; [congruence|cbn; lia]).
  do 2 f_equal. subst len. clear. induction a as [|c a IH]; [destruct b; reflexivity|]. cbn. f_equal. exact IH.
Qed.
Print Assumptions C78_cut.

(** the first entries are the ones shown *)
Theorem C78_first_entries srepr n len l d : compact srepr n len (PList l) (S d) = compact srepr n len (PList (firstn n l)) (S d).
Proof. cbn [compact]. rewrite <- firstn_map, firstn_firstn, Nat.min_id. reflexivity. Qed.
Theorem C78_first_dict_entries srepr n len m d : compact srepr n len (PDict m) (S d) = compact srepr n len (PDict (firstn n m)) (S d).
Proof. cbn [compact]. rewrite <- firstn_map, firstn_firstn, Nat.min_id. reflexivity. Qed.

(** ** Where the property fails *)
Definition quote (s : string) : string := ("'" ++ s ++ "'")%string.
Lemma quote_like : repr_like quote.
Proof. intros s. unfold quote. rewrite !slen_app. cbn [slen]. lia. Qed.
Fixpoint xs (n : nat) : string := match n with O => "" | S n' => String "x" (xs n') end.
Lemma slen_xs n : slen (xs n) = n.
Proof. induction n; cbn; auto. Qed.

(** FINDING: the values of keys that start with two underscores are printed in full: strings, lists and dictionaries alike.
    (Samples have such keys: __key__, __restore_key__, __subflavors__, and any the user adds.) *)
Theorem C78_dunder_refuted srepr n : (forall s, slen s <= slen (srepr s)) ->
  slen (compact srepr 10 50 (PDict [(KStr "__info", PStr (xs n))]) 3) >= n /\
  slen (compact srepr 10 50 (PDict [(KStr "__info", PList (repeat (POther "1") n))]) 3) >= n.
Proof.
  intros H. split.
  - cbn [compact firstn map fst snd]. change (dunder (KStr "__info")) with true. cbn iota. cbn [commas vrepr].
    rewrite !slen_app. pose proof (H (xs n)) as H1. rewrite slen_xs in H1. lia.
  - cbn [compact firstn map fst snd]. change (dunder (KStr "__info")) with true. cbn iota. cbn [commas vrepr].
    rewrite !slen_app. cut (n <= slen (commas (map (vrepr srepr) (repeat (POther "1") n)))); [lia|].
    induction n as [|n IH]; [lia|]. cbn [repeat map vrepr]. destruct (map (vrepr srepr) (repeat (POther "1") n)) as [|y l] eqn:E.
    + destruct n; [cbn; lia|discriminate].
    + change (commas ("1" :: y :: l)) with ("1" ++ ", " ++ commas (y :: l))%string. rewrite !slen_app. cbn [slen]. lia.
Qed.
Print Assumptions C78_dunder_refuted.

(** FINDING: whatever is neither string, list nor dictionary is printed in full, in particular the undecoded contents of
    files (bytes) of which the samples consist that are passed to the loader *)
Theorem C78_bytes_refuted srepr n : slen (sample_failed srepr (PDict [(KStr "jpg", POther (xs n))])) >= n.
Proof. unfold sample_failed. cbn [compact firstn map fst snd]. change (dunder (KStr "jpg")) with false. cbn iota. cbn [commas compact]. rewrite !slen_app, slen_xs. lia. Qed.
Print Assumptions C78_bytes_refuted.

(** FINDING: that entries were left out cannot be seen: a list of eleven is shown like its first ten *)
Theorem C78_cut_invisible_refuted srepr l x d : length l = 10 ->
  compact srepr 10 50 (PList (l ++ [x])) (S d) = compact srepr 10 50 (PList l) (S d).
Proof.
  intros HL. rewrite C78_first_entries. rewrite firstn_app, firstn_all2 by lia. replace (10 - length l) with 0 by lia. cbn [firstn]. rewrite app_nil_r. reflexivity.
Qed.
Print Assumptions C78_cut_invisible_refuted.

Example C78_nonvacuous :
  repr_like quote /\ tame 8 4 (PDict [(KStr "meta", PList (repeat (PStr (xs 200)) 40)); (KOther "3" "3", POther "None")]) /\
  bound 2 3 8 4 1 = 150 /\
  small 10 50 3 (PDict [(KStr "meta", PList [PStr "a"; POther "1"]); (KStr "txt", PStr "b")]) /\
  sample_failed quote (PDict [(KStr "__key__", PStr "s/1"); (KStr "meta", PList [PStr "a"; PList [PList [POther "1"]]]); (KStr "txt", PStr (xs 52))]) =
    "Sample {__key__: 's/1', meta: ['a', [[...]]], txt: 'xxxxxxxxxxxxxxxxxxxxxxxxxxxxxxxxxxxxxxxxxxxxxxxxxx...'} failed".
Proof.
  split; [exact quote_like|]. split; [|split; [vm_compute; reflexivity|split; [|vm_compute; reflexivity]]].
  - cbn. repeat split; try lia.
  - unfold small. cbn. repeat split; lia.
Qed.
