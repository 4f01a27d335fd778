From Coq Require Import String Ascii DecimalString DecimalZ DecimalFacts.
From Verif Require Import Base WorkerConfig Rng WorkerSpec.
Local Open Scope Z_scope.

(** *** ids *)
Lemma mixed_radix_inj n r1 l1 r2 l2 : 0 <= l1 < n -> 0 <= l2 < n ->
  r1 * n + l1 = r2 * n + l2 -> r1 = r2 /\ l1 = l2.
Proof. intros H1 H2 E.
  assert (r1 = r2).
  { destruct (Z.lt_trichotomy r1 r2) as [L|[?|L]]; auto; exfalso.
    - assert ((r1 + 1) * n <= r2 * n) by (apply Z.mul_le_mono_nonneg_r; lia). lia.
    - assert ((r2 + 1) * n <= r1 * n) by (apply Z.mul_le_mono_nonneg_r; lia). lia. }
  subst. split; lia. Qed.

Lemma rank_worker_id_plain c id n off st :
  num_workers c = n -> 0 < n -> 0 <= off < n -> 0 <= id < n ->
  rank_worker_id c (mkEnv (Some (id, n)) off true st None) = Ok ((id - off) mod n).
Proof.
  intros Hn Hp Ho Hi. unfold rank_worker_id; cbn. rewrite Hn, Z.eqb_refl. cbn.
  destruct (Z.eqb_spec n 0); [lia|]. f_equal.
  replace (id + n - off) with (id - off + 1 * n) by lia. apply Z.mod_add. lia.
Qed.

Lemma shift_inj n off i j : 0 < n -> 0 <= i < n -> 0 <= j < n ->
  (i - off) mod n = (j - off) mod n -> i = j.
Proof.
  intros Hn Hi Hj E.
  assert (D : (i - j) mod n = 0).
  { replace (i - j) with ((i - off) - (j - off)) by lia. rewrite Zminus_mod, E, Z.sub_diag. apply Z.mod_0_l. lia. }
  apply Z.mod_divide in D; [|lia]. destruct D as [q Hq].
  assert (q = 0); [|lia].
  destruct (Z.lt_trichotomy q 0) as [L|[?|L]]; auto; exfalso.
  - assert (q * n <= (-1) * n) by (apply Z.mul_le_mono_nonneg_r; lia). lia.
  - assert (1 * n <= q * n) by (apply Z.mul_le_mono_nonneg_r; lia). lia.
Qed.

(** *** the hashed text determines worker and seed offset *)
Definition comma : ascii := ","%char.

Fixpoint no_comma (s : string) : Prop :=
  match s with EmptyString => True | String a s' => a <> comma /\ no_comma s' end.

Lemma append_comma_inj s1 s2 t1 t2 : no_comma s1 -> no_comma s2 ->
  (s1 ++ String comma t1)%string = (s2 ++ String comma t2)%string -> s1 = s2 /\ t1 = t2.
Proof.
  revert s2; induction s1 as [|a s1 IH]; intros [|b s2] N1 N2 E; cbn in *.
  - injection E as <-. auto.
  - injection E as E1 E2. destruct N2 as [X _]. congruence.
  - injection E as E1 E2. destruct N1 as [X _]. congruence.
  - injection E as -> E2. destruct (IH s2) as [-> ->]; tauto.
Qed.

Lemma no_comma_uint d : no_comma (NilEmpty.string_of_uint d).
Proof. induction d; cbn; split; auto; discriminate. Qed.

Lemma no_comma_Z z : no_comma (str_of_Z z).
Proof. unfold str_of_Z, NilEmpty.string_of_int. destruct (Z.to_int z) as [d|d]; cbn; try split; try discriminate; apply no_comma_uint. Qed.

Lemma string_of_int_inj i j : NilEmpty.string_of_int i = NilEmpty.string_of_int j -> i = j.
Proof.
  intros E. assert (X : NilEmpty.int_of_string (NilEmpty.string_of_int i) = NilEmpty.int_of_string (NilEmpty.string_of_int j)) by (rewrite E; reflexivity).
  rewrite !NilEmpty.isi in X. injection X; auto.
Qed.

Lemma str_of_Z_inj a b : str_of_Z a = str_of_Z b -> a = b.
Proof. unfold str_of_Z. intros E. apply string_of_int_inj in E.
  rewrite <- (DecimalZ.of_to a), <- (DecimalZ.of_to b), E. reflexivity. Qed.

Lemma seed_text_inj g1 o1 g2 o2 : seed_text g1 o1 = seed_text g2 o2 -> g1 = g2 /\ o1 = o2.
Proof.
  unfold seed_text. cbn [append]. intros E. apply append_comma_inj in E; try apply no_comma_Z.
  destruct E as [E1 E2]. split; apply str_of_Z_inj; auto.
Qed.


Lemma worker_pop_push e idx : active e = true ->
  worker_pop (mkEnv (winfo e) (id_offset e) true (stack e ++ [idx]) (override e)) = Ok (idx, e).
Proof.
  intros A. unfold worker_pop. cbn. rewrite rev_app_distr. cbn. rewrite rev_involutive.
  destruct e as [wi io ac sk ov]. cbn in *. subst ac. reflexivity.
Qed.

Lemma run_body_spec c b : forall e inner outer mid l,
  active e = true -> stack e = mid ++ [inner] -> hd inner mid = outer ->
  rank_worker_id c e = Ok l ->
  run_body c b e =
    (e, match body_raises b with
        | Some x => Err x
        | None => Ok (map (glob (Z.max (num_workers c) 1) l) (body_reads inner outer b))
        end).
Proof.
  induction b as [|x|idx b IH|b1 IH1 b2 IH2]; intros e inner outer mid l A S O L; cbn [run_body body_raises body_reads].
  - f_equal. unfold active_sample_index, active_batch_index. rewrite S, rev_app_distr. cbn [rev app].
    rewrite L. destruct mid as [|m mid]; cbn in *; subst; reflexivity.
  - reflexivity.
  - unfold with_ctx, worker_push. rewrite A.
    erewrite (IH (mkEnv (winfo e) (id_offset e) true (stack e ++ [idx]) (override e)) idx outer (stack e) l); try reflexivity.
    + rewrite worker_pop_push by exact A. rewrite Z.eqb_refl. reflexivity.
    + rewrite S. destruct mid as [|m mid]; cbn in *; exact O.
    + exact L.
  - rewrite (IH1 e inner outer mid l A S O L). destruct (body_raises b1); [reflexivity|].
    rewrite (IH2 e inner outer mid l A S O L). destruct (body_raises b2); [reflexivity|].
    rewrite map_app. reflexivity.
Qed.
