(** C22 Split preparation partitions the shards. *)
From Coq Require Import String QArith Qabs Lqa.
From Verif Require Import Base PyFloat PyFloatProofs PyFloatMono Prepare.
Local Open Scope list_scope.
Local Open Scope nat_scope.

(** ** each shard is in at most one part, parts are contiguous and in order *)
Lemma dict_set_new {V} (d : list (string * V)) k v : ~ In k (map fst d) -> dict_set d k v = d ++ [(k, v)].
Proof.
  induction d as [|[k' v'] d IH]; cbn [dict_set map fst app]; intros H; [reflexivity|].
  destruct (String.eqb k k') eqn:E; [apply String.eqb_eq in E; subst; exfalso; apply H; left; reflexivity|].
  rewrite IH; [reflexivity|]. intros I. apply H. right. exact I.
Qed.

Lemma slice_full {A} (l : list A) a b : a <= b -> firstn a l ++ slice a b l = firstn b l.
Proof.
  intros H. unfold slice. revert a b H. induction l as [|x l IH]; intros [|a] [|b] H; cbn; try lia; try reflexivity.
  - rewrite firstn_nil. reflexivity.
  - f_equal. apply IH. lia.
Qed.

Lemma split_loop_spec shards ratios : forall total offset acc,
  is_double total -> (forall p r, In (p, r) ratios -> is_double r) ->
  offset = Z.to_nat (py_int (py_mul (Z.of_nat (length shards)) total)) ->
  NoDup (map fst acc ++ map fst ratios) ->
  concat (map snd acc) = firstn offset shards ->
  let res := split_loop shards total offset ratios acc in
  let total' := fold_left py_add (map snd ratios) total in
  map fst res = map fst acc ++ map fst ratios /\
  concat (map snd res) = firstn (Z.to_nat (py_int (py_mul (Z.of_nat (length shards)) total'))) shards /\ is_double total'.
Proof.
  induction ratios as [|[p r] ratios IH]; intros total offset acc DT DR HO ND HC; cbv zeta; cbn [split_loop map fold_left fst snd].
  - rewrite app_nil_r. split; [reflexivity|]. rewrite <- HO. auto.
  - assert (Dr : is_double r) by (apply (DR p); left; reflexivity).
    set (total' := py_add total r). set (e := Z.to_nat (py_int (py_mul (Z.of_nat (length shards)) total'))).
    assert (LE : offset <= e).
    { rewrite HO. unfold e. apply Z2Nat.inj_le; [| |apply py_int_mul_mono; [lia|exact DT|apply py_add_double; assumption|apply py_add_ge; assumption]].
      - assert (D : is_double (py_mul (Z.of_nat (length shards)) total)) by (eexists _, _; split; [|reflexivity]; apply (double_den DT)).
        apply double_den in D. unfold py_int. apply Z.div_pos; lia.
      - assert (D : is_double (py_mul (Z.of_nat (length shards)) total')) by (eexists _, _; split; [|reflexivity]; apply (double_den (py_add_double DT Dr))).
        apply double_den in D. unfold py_int. apply Z.div_pos; lia. }
    assert (N : ~ In p (map fst acc)).
    { intros I. cbn [map fst] in ND. apply NoDup_remove_2 in ND. apply ND. apply in_or_app. left. exact I. }
    rewrite dict_set_new by exact N.
    specialize (IH total' e (acc ++ [(p, slice offset e shards)])). cbv zeta in IH.
    rewrite map_app, <- app_assoc in IH. cbn [map fst app] in IH.
    destruct IH as (A & B & C).
    + apply py_add_double; assumption.
    + intros q x I. apply (DR q). right. exact I.
    + reflexivity.
    + exact ND.
    + rewrite map_app, concat_app, HC. cbn [map snd concat]. rewrite app_nil_r. apply slice_full. exact LE.
    + split; [|split; assumption]. exact A.
Qed.

Lemma fsum_double l : (forall r, In r l -> is_double r) -> is_double (fsum l).
Proof.
  unfold fsum. assert (G : forall l a, is_double a -> (forall r, In r l -> is_double r) -> is_double (fold_left py_add l a)).
  { intros l0. induction l0 as [|x l0 IH]; intros a Da H; [exact Da|]. cbn. apply IH; [apply py_add_double; [exact Da|apply H; left; reflexivity]|].
    intros r I. apply H. right. exact I. }
  apply G. exists 0%Z, 1%Z. split; [lia|reflexivity].
Qed.

Definition final_total (ratios : list (string * pyfloat)) : pyfloat :=
  fsum (map (fun pr => py_fdiv (snd pr) (fsum (map snd ratios))) ratios).

Lemma ratio_split_spec shards ratios parts :
  NoDup (map fst ratios) -> (forall p r, In (p, r) ratios -> is_double r) ->
  ratio_split shards ratios = Ok parts ->
  map fst parts = map fst ratios /\
  concat (map snd parts) = firstn (Z.to_nat (py_int (py_mul (Z.of_nat (length shards)) (final_total ratios)))) shards /\
  (ratios <> [] -> (0 < fnum (fsum (map snd ratios)))%Z).
Proof.
  intros ND DR. unfold ratio_split.
  assert (DS : is_double (fsum (map snd ratios))).
  { apply fsum_double. intros r I. apply in_map_iff in I. destruct I as ([p x] & <- & I). apply (DR p). exact I. }
  pose proof (double_den DS) as [PD PN].
  destruct (Z.eqb_spec (fnum (fsum (map snd ratios))) 0) as [E|NE].
  - destruct ratios; [|discriminate]. intros [= <-]. cbn. split; [reflexivity|]. split; [|congruence].
    change (final_total []) with fzero. unfold py_mul. cbn [fzero fnum fden]. rewrite Z.mul_0_r. reflexivity.
  - intros [= <-].
    pose proof (@split_loop_spec shards (map (fun pr => (fst pr, py_fdiv (snd pr) (fsum (map snd ratios)))) ratios) fzero 0 []) as S.
    cbv zeta in S. rewrite !map_map in S. cbn [map app fst snd concat] in S.
    destruct S as (A & B & _).
    + exists 0%Z, 1%Z. split; [lia|reflexivity].
    + intros p r I. apply in_map_iff in I. destruct I as ([q x] & [= <- <-] & I). cbn [snd]. apply py_fdiv_double; [apply (DR q); exact I|exact DS|lia].
    + unfold py_mul. cbn [fzero fnum fden]. rewrite Z.mul_0_r. reflexivity.
    + exact ND.
    + reflexivity.
    + split; [exact A|]. split; [exact B|lia].
Qed.

(** Each non-empty shard is in at most one part, parts are consecutive runs of the (shuffled) shard list
    in the order of the given split parts: the parts followed by the left-over shards are exactly
    the shard list. *)
Theorem C22_parts_disjoint_contiguous_partial (infos : list shard_info) (shuffled : list string) ratios parts :
  Permutation shuffled (map sh_name (usable_shards infos)) ->
  NoDup (map fst ratios) -> (forall p r, In (p, r) ratios -> is_double r) ->
  ratio_split shuffled ratios = Ok parts ->
  map fst parts = map fst ratios /\
  exists lost, concat (map snd parts) ++ lost = shuffled /\
    Permutation (concat (map snd parts) ++ lost) (map sh_name (filter (fun s => 0 <? sh_count s) infos)).
Proof.
  intros HP ND DR H. destruct (ratio_split_spec ND DR H) as (A & B & _). split; [exact A|].
  exists (skipn (Z.to_nat (py_int (py_mul (Z.of_nat (length shuffled)) (final_total ratios)))) shuffled).
  rewrite B, firstn_skipn. split; [reflexivity|]. rewrite HP. unfold usable_shards.
  rewrite (filter_ext (fun s => negb (sh_count s =? 0)) (fun s => 0 <? sh_count s)); [apply Permutation_refl|].
  intros s. destruct (sh_count s); reflexivity.
Qed.
Print Assumptions C22_parts_disjoint_contiguous_partial.

(** ** how many shards can be lost *)
Open Scope Q_scope.
Definition fval (f : pyfloat) : Q := inject_Z (fnum f) / inject_Z (fden f).
Definition u : Q := 1 # (2 ^ 53)%positive.

Lemma rnd_q num den : (0 <= num)%Z -> (0 < den)%Z ->
  (1 - u) * (inject_Z num / inject_Z den) <= fval (rnd num den) <= (1 + u) * (inject_Z num / inject_Z den).
Proof.
  intros Hn Hd. assert (Dq : 0 < inject_Z den) by (change 0 with (inject_Z 0); rewrite <- Zlt_Qlt; exact Hd).
  destruct (Z.eq_dec num 0) as [->|NZ].
  - rewrite rnd_nonpos by lia. unfold fval. cbn [fnum fden].
    assert (E : inject_Z 0 / inject_Z den == 0) by (field; intros X; rewrite X in Dq; revert Dq; apply Qlt_irrefl).
    rewrite E. change (inject_Z 0 / inject_Z 1) with (0 / 1). split; [apply Qle_lteq; right|apply Qle_lteq; right]; field.
  - destruct (rnd_spec (num := num) (den := den)) as [P R]; [lia|lia|]. unfold fval. set (f := rnd num den) in *.
    assert (Fq : 0 < inject_Z (fden f)) by (change 0 with (inject_Z 0); rewrite <- Zlt_Qlt; exact P).
    assert (R1 : (2 ^ 53 * (fnum f * den) <= (2 ^ 53 + 1) * (num * fden f))%Z) by lia.
    assert (R2 : ((2 ^ 53 - 1) * (num * fden f) <= 2 ^ 53 * (fnum f * den))%Z) by lia.
    rewrite Zle_Qle in R1, R2. rewrite !inject_Z_mult in R1, R2.
    set (a := inject_Z (fnum f)) in *. set (b := inject_Z (fden f)) in *. set (x := inject_Z num) in *. set (y := inject_Z den) in *.
    split.
    + apply Qle_shift_div_l; [exact Fq|]. 
      assert (E : (1 - u) * (x / y) * b == ((1 - u) * (x * b)) / y) by (field; intros X; rewrite X in Dq; revert Dq; apply Qlt_irrefl).
      rewrite E. apply Qle_shift_div_r; [exact Dq|].
      change (inject_Z (2 ^ 53 - 1)) with (9007199254740991 # 1) in R2. change (inject_Z (2 ^ 53)) with (9007199254740992 # 1) in R2.
      unfold u. change (1 # 2 ^ 53) with (1 # 9007199254740992). lra.
    + apply Qle_shift_div_r; [exact Fq|].
      assert (E : (1 + u) * (x / y) * b == ((1 + u) * (x * b)) / y) by (field; intros X; rewrite X in Dq; revert Dq; apply Qlt_irrefl).
      rewrite E. apply Qle_shift_div_l; [exact Dq|].
      change (inject_Z (2 ^ 53 + 1)) with (9007199254740993 # 1) in R1. change (inject_Z (2 ^ 53)) with (9007199254740992 # 1) in R1.
      unfold u. change (1 # 2 ^ 53) with (1 # 9007199254740992). lra.
Qed.

Lemma inj_pos z : (0 < z)%Z -> 0 < inject_Z z.
Proof. intros H. change 0 with (inject_Z 0). rewrite <- Zlt_Qlt. exact H. Qed.
Lemma inj_nonneg z : (0 <= z)%Z -> 0 <= inject_Z z.
Proof. intros H. change 0 with (inject_Z 0). rewrite <- Zle_Qle. exact H. Qed.
Lemma pos_nz x : 0 < x -> ~ x == 0.
Proof. intros H E. rewrite E in H. revert H. apply Qlt_irrefl. Qed.

Lemma fval_nonneg f : is_double f -> 0 <= fval f.
Proof.
  intros D. apply double_den in D. unfold fval. apply Qle_shift_div_l; [apply inj_pos; apply D|]. rewrite Qmult_0_l. apply inj_nonneg, D.
Qed.

Lemma py_add_q f g : is_double f -> is_double g ->
  (1 - u) * (fval f + fval g) <= fval (py_add f g) <= (1 + u) * (fval f + fval g).
Proof.
  intros Df Dg. apply double_den in Df, Dg. destruct Df as [A B]. destruct Dg as [C D]. unfold py_add.
  assert (E : fval f + fval g == inject_Z (fnum f * fden g + fnum g * fden f) / inject_Z (fden f * fden g)).
  { unfold fval. rewrite inject_Z_plus, !inject_Z_mult. field. split; apply pos_nz, inj_pos; assumption. }
  rewrite E. apply rnd_q; nia.
Qed.

Lemma py_fdiv_q f g : is_double f -> is_double g -> (0 < fnum g)%Z -> (1 - u) * (fval f / fval g) <= fval (py_fdiv f g).
Proof.
  intros Df Dg H. apply double_den in Df, Dg. destruct Df as [A B]. destruct Dg as [C D]. unfold py_fdiv.
  assert (E : fval f / fval g == inject_Z (fnum f * fden g) / inject_Z (fden f * fnum g)).
  { unfold fval. rewrite !inject_Z_mult. field. repeat split; apply pos_nz, inj_pos; assumption. }
  rewrite E. apply rnd_q; nia.
Qed.

Lemma py_mul_q n f : (0 <= n)%Z -> is_double f -> (1 - u) * (inject_Z n * fval f) <= fval (py_mul n f).
Proof.
  intros Hn Df. apply double_den in Df. destruct Df as [A B]. unfold py_mul.
  assert (E : inject_Z n * fval f == inject_Z (n * fnum f) / inject_Z (fden f)).
  { unfold fval. rewrite inject_Z_mult. field. apply pos_nz, inj_pos. assumption. }
  rewrite E. apply rnd_q; nia.
Qed.

Fixpoint qpow (x : Q) (n : nat) : Q := match n with O => 1 | S n' => x * qpow x n' end.
Fixpoint qsum (l : list Q) : Q := match l with [] => 0 | x :: l' => x + qsum l' end.

Lemma u_range : 0 < u < 1.
Proof. unfold u. split; reflexivity. Qed.

Lemma qpow_nonneg x n : 0 <= x -> 0 <= qpow x n.
Proof. intros H. induction n as [|n IH]; cbn [qpow]; [discriminate|]. apply Qmult_le_0_compat; assumption. Qed.
Lemma qpow_add x a b : qpow x (a + b) == qpow x a * qpow x b.
Proof. induction a as [|a IH]; cbn [qpow plus]; [ring|]. rewrite IH. ring. Qed.
Lemma qpow_bernoulli n : 1 - inject_Z (Z.of_nat n) * u <= qpow (1 - u) n.
Proof.
  pose proof u_range as [U1 U2]. induction n as [|n IH]; cbn [qpow].
  - change (inject_Z (Z.of_nat 0)) with 0. lra.
  - replace (Z.of_nat (S n)) with (Z.of_nat n + 1)%Z by lia. rewrite inject_Z_plus. change (inject_Z 1) with 1.
    assert (N : 0 <= inject_Z (Z.of_nat n)) by (apply inj_nonneg; lia). set (x := inject_Z (Z.of_nat n)) in *.
    assert ((1 - u) * (1 - x * u) <= (1 - u) * qpow (1 - u) n) by (apply Qmult_le_l; lra).
    assert (0 <= x * (u * u)) by (apply Qmult_le_0_compat; [assumption|apply Qmult_le_0_compat; lra]).
    assert (E : (1 - u) * (1 - x * u) == 1 - (x + 1) * u + x * (u * u)) by ring. lra.
Qed.
Lemma qpow_prod n : qpow (1 - u) n * qpow (1 + u) n <= 1.
Proof.
  pose proof u_range as [U1 U2]. induction n as [|n IH]; cbn [qpow]; [lra|].
  assert (A : 0 <= qpow (1 - u) n) by (apply qpow_nonneg; lra). assert (B : 0 <= qpow (1 + u) n) by (apply qpow_nonneg; lra).
  set (x := qpow (1 - u) n) in *. set (y := qpow (1 + u) n) in *.
  assert (E : (1 - u) * x * ((1 + u) * y) == (1 - u * u) * (x * y)) by ring. rewrite E.
  assert (0 <= u * u) by (apply Qmult_le_0_compat; lra). assert (0 <= x * y) by (apply Qmult_le_0_compat; assumption).
  assert (0 <= (u * u) * (x * y)) by (apply Qmult_le_0_compat; assumption). lra.
Qed.

Lemma qsum_nonneg l : (forall x, In x l -> 0 <= x) -> 0 <= qsum l.
Proof. induction l as [|x l IH]; intros H; cbn [qsum]; [discriminate|]. pose proof (H x (or_introl eq_refl)). assert (0 <= qsum l) by (apply IH; intros; apply H; right; assumption). lra. Qed.

Lemma fold_add_bounds l : forall a, is_double a -> (forall r, In r l -> is_double r) ->
  qpow (1 - u) (length l) * (fval a + qsum (map fval l)) <= fval (fold_left py_add l a) /\
  fval (fold_left py_add l a) <= qpow (1 + u) (length l) * (fval a + qsum (map fval l)).
Proof.
  pose proof u_range as [U1 U2]. induction l as [|x l IH]; intros a Da H; cbn [length qpow map qsum fold_left]; [lra|].
  assert (Dx : is_double x) by (apply H; left; reflexivity).
  destruct (IH (py_add a x)) as [L U]; [apply py_add_double; assumption|intros r I; apply H; right; exact I|].
  destruct (py_add_q Da Dx) as [PL PU].
  assert (NS : 0 <= qsum (map fval l)).
  { apply qsum_nonneg. intros q I. apply in_map_iff in I. destruct I as (r & <- & I). apply fval_nonneg, H. right. exact I. }
  assert (A : 0 <= qpow (1 - u) (length l)) by (apply qpow_nonneg; lra). assert (B : 0 <= qpow (1 + u) (length l)) by (apply qpow_nonneg; lra).
  pose proof (fval_nonneg Da) as Na. pose proof (fval_nonneg Dx) as Nx.
  set (S := qsum (map fval l)) in *. set (p := qpow (1 - u) (length l)) in *. set (q := qpow (1 + u) (length l)) in *.
  set (fa := fval a) in *. set (fx := fval x) in *. set (y := fval (py_add a x)) in *.
  assert (US : 0 <= u * S) by (apply Qmult_le_0_compat; lra).
  split.
  - eapply Qle_trans; [|exact L]. assert (E : (1 - u) * p * (fa + (fx + S)) == p * ((1 - u) * (fa + fx) + (1 - u) * S)) by ring. rewrite E.
    rewrite (Qmult_comm p), (Qmult_comm p). apply Qmult_le_compat_r; [lra|exact A].
  - eapply Qle_trans; [exact U|]. assert (E : (1 + u) * q * (fa + (fx + S)) == q * ((1 + u) * (fa + fx) + (1 + u) * S)) by ring. rewrite E.
    rewrite (Qmult_comm q), (Qmult_comm q). apply Qmult_le_compat_r; [lra|exact B].
Qed.

Lemma fsum_bounds l : (forall r, In r l -> is_double r) ->
  qpow (1 - u) (length l) * qsum (map fval l) <= fval (fsum l) /\ fval (fsum l) <= qpow (1 + u) (length l) * qsum (map fval l).
Proof.
  intros H. destruct (@fold_add_bounds l fzero) as [A B]; [exists 0%Z, 1%Z; split; [lia|reflexivity]|exact H|].
  assert (E : fval fzero + qsum (map fval l) == qsum (map fval l)).
  { unfold fval at 1. cbn [fzero fnum fden]. change (inject_Z 0 / inject_Z 1) with (0 / 1). field. }
  rewrite E in A, B. split; assumption.
Qed.

Lemma final_total_lower ratios : (forall p r, In (p, r) ratios -> is_double r) -> (0 < fnum (fsum (map snd ratios)))%Z ->
  qpow (1 - u) (2 * length ratios + 1) <= fval (final_total ratios) /\ is_double (final_total ratios).
Proof.
  intros DR HP. pose proof u_range as [U1 U2].
  assert (DS' : forall r, In r (map snd ratios) -> is_double r).
  { intros r I. apply in_map_iff in I. destruct I as ([p x] & <- & I). apply (DR p). exact I. }
  pose proof (fsum_double DS') as DS. destruct (fsum_bounds DS') as [_ TU].
  unfold final_total. set (T := fsum (map snd ratios)) in *. set (qs := map (fun pr => py_fdiv (snd pr) T) ratios).
  assert (DQ : forall r, In r qs -> is_double r).
  { intros r I. apply in_map_iff in I. destruct I as ([p x] & <- & I). apply py_fdiv_double; [apply (DR p); exact I|exact DS|exact HP]. }
  destruct (fsum_bounds DQ) as [FL _]. split; [|apply fsum_double; exact DQ].
  assert (LQ : length qs = length ratios) by apply map_length. rewrite LQ in FL. rewrite map_length in TU.
  assert (TP : 0 < fval T).
  { unfold fval. apply Qlt_shift_div_l; [apply inj_pos; apply (double_den DS)|]. rewrite Qmult_0_l. apply inj_pos. exact HP. }
  (* sum of the quotients *)
  assert (SQ : (1 - u) * (qsum (map fval (map snd ratios)) / fval T) <= qsum (map fval qs)).
  { unfold qs. clear FL LQ TU DS' DQ qs. revert DR. generalize ratios. intros rs. induction rs as [|[p r] rs IH]; intros DR; cbn [map qsum snd].
    - assert (E : (1 - u) * (0 / fval T) == 0) by (field; apply pos_nz; exact TP). rewrite E. apply Qle_refl.
    - assert (A : (1 - u) * (fval r / fval T) <= fval (py_fdiv r T)) by (apply py_fdiv_q; [apply (DR p); left; reflexivity|exact DS|exact HP]).
      assert (B : (1 - u) * (qsum (map fval (map snd rs)) / fval T) <= qsum (map fval (map (fun pr : string * pyfloat => py_fdiv (snd pr) T) rs))) by (apply IH; intros; eapply DR; right; eassumption).
      assert (E : (1 - u) * ((fval r + qsum (map fval (map snd rs))) / fval T) == (1 - u) * (fval r / fval T) + (1 - u) * (qsum (map fval (map snd rs)) / fval T))
        by (field; apply pos_nz; exact TP).
      rewrite E. lra. }
  set (R := qsum (map fval (map snd ratios))) in *. set (k := length ratios) in *.
  (* R / T >= (1-u)^k *)
  assert (P0 : 0 <= qpow (1 - u) k) by (apply qpow_nonneg; lra). assert (P1 : 0 <= qpow (1 + u) k) by (apply qpow_nonneg; lra).
  assert (RN : 0 <= R).
  { apply qsum_nonneg. intros q I. apply in_map_iff in I. destruct I as (r & <- & I). apply fval_nonneg, DS'. exact I. }
  assert (RT : qpow (1 - u) k <= R / fval T).
  { apply Qle_shift_div_l; [exact TP|]. 
    assert (qpow (1 - u) k * fval T <= qpow (1 - u) k * (qpow (1 + u) k * R)).
    { rewrite (Qmult_comm (qpow (1 - u) k)), (Qmult_comm (qpow (1 - u) k)). apply Qmult_le_compat_r; assumption. }
    pose proof (@qpow_prod k) as PP. assert (E : qpow (1 - u) k * (qpow (1 + u) k * R) == (qpow (1 - u) k * qpow (1 + u) k) * R) by ring.
    assert (qpow (1 - u) k * qpow (1 + u) k * R <= 1 * R) by (apply Qmult_le_compat_r; assumption). lra. }
  assert (SQ2 : (1 - u) * qpow (1 - u) k <= qsum (map fval qs)).
  { eapply Qle_trans; [|exact SQ]. rewrite (Qmult_comm (1 - u)), (Qmult_comm (1 - u)). apply Qmult_le_compat_r; [exact RT|lra]. }
  eapply Qle_trans; [|exact FL].
  replace (2 * k + 1)%nat with (k + (1 + k))%nat by lia. rewrite qpow_add. cbn [plus qpow].
  rewrite (Qmult_comm (qpow (1 - u) k)), (Qmult_comm (qpow (1 - u) k)). apply Qmult_le_compat_r; assumption.
Qed.

Close Scope Q_scope.

(** At most one shard, the last of the (shuffled) list, is assigned to no part. *)
Theorem C22_at_most_last_shard_lost_partial (infos : list shard_info) (shuffled : list string) ratios parts :
  Permutation shuffled (map sh_name (usable_shards infos)) ->
  NoDup (map fst ratios) -> (forall p r, In (p, r) ratios -> is_double r) -> ratios <> [] ->
  (Z.of_nat (length shuffled) * (2 * Z.of_nat (length ratios) + 2) <= 2 ^ 53)%Z ->
  ratio_split shuffled ratios = Ok parts ->
  exists lost, concat (map snd parts) ++ lost = shuffled /\ length lost <= 1.
Proof.
  intros HP ND DR NE SZ H. destruct (ratio_split_spec ND DR H) as (A & B & C). specialize (C NE).
  destruct (final_total_lower DR C) as [FL FD].
  set (n := length shuffled) in *. set (k := length ratios) in *.
  exists (skipn (Z.to_nat (py_int (py_mul (Z.of_nat n) (final_total ratios)))) shuffled).
  rewrite B, firstn_skipn. split; [reflexivity|]. rewrite skipn_length. fold n.
  enough (Z.of_nat n - 1 <= py_int (py_mul (Z.of_nat n) (final_total ratios)))%Z by lia.
  assert (NN : (0 <= Z.of_nat n)%Z) by lia. pose proof (py_mul_q NN FD) as M.
  assert (DM : is_double (py_mul (Z.of_nat n) (final_total ratios))) by (eexists _, _; split; [|reflexivity]; apply (double_den FD)).
  pose proof (double_den DM) as [PD PN]. set (f := py_mul (Z.of_nat n) (final_total ratios)) in *. unfold py_int.
  apply Z.div_le_lower_bound; [exact PD|].
  assert (Q : (inject_Z (Z.of_nat n - 1) <= fval f)%Q).
  { eapply Qle_trans; [|exact M]. pose proof u_range as [U1 U2]. set (SS := fval (final_total ratios)) in *.
    pose proof (@qpow_bernoulli (2 * k + 2)) as BE.
    replace (2 * k + 2) with (1 + (2 * k + 1)) in BE at 2 by lia. cbn [plus qpow] in BE.
    assert (X : ((1 - u) * qpow (1 - u) (2 * k + 1) <= (1 - u) * SS)%Q).
    { rewrite (Qmult_comm (1 - u)), (Qmult_comm (1 - u)). apply Qmult_le_compat_r; [exact FL|lra]. }
    assert (Y : (1 - inject_Z (Z.of_nat (2 * k + 2)) * u <= (1 - u) * SS)%Q) by (eapply Qle_trans; [exact BE|exact X]).
    assert (W : (inject_Z (Z.of_nat n) * (1 - inject_Z (Z.of_nat (2 * k + 2)) * u) <= inject_Z (Z.of_nat n) * ((1 - u) * SS))%Q).
    { rewrite (Qmult_comm (inject_Z _)), (Qmult_comm (inject_Z (Z.of_nat n))). apply Qmult_le_compat_r; [exact Y|]. apply inj_nonneg. lia. }
    assert (V : (inject_Z (Z.of_nat n * Z.of_nat (2 * k + 2)) * u <= 1)%Q).
    { assert (inject_Z (Z.of_nat n * Z.of_nat (2 * k + 2)) <= inject_Z (2 ^ 53))%Q by (rewrite <- Zle_Qle; lia).
      assert (inject_Z (Z.of_nat n * Z.of_nat (2 * k + 2)) * u <= inject_Z (2 ^ 53) * u)%Q by (apply Qmult_le_compat_r; lra).
      eapply Qle_trans; [eassumption|]. unfold u. cbn. discriminate. }
    rewrite inject_Z_mult in V. unfold Z.sub. rewrite inject_Z_plus. change (inject_Z (-1)) with (-1)%Q.
    set (a := inject_Z (Z.of_nat n)) in *. set (b := inject_Z (Z.of_nat (2 * k + 2))) in *.
    assert (E1 : (a * (1 - b * u) == a - a * b * u)%Q) by ring. assert (E2 : (a * ((1 - u) * SS) == (1 - u) * (a * SS))%Q) by ring.
    rewrite E2 in W. rewrite E1 in W. eapply Qle_trans; [|exact W]. clear - V. set (x := (a * b * u)%Q) in *. change (inject_Z (- (1))) with (- (1))%Q. lra. }
  unfold fval in Q. assert (Q2 : (inject_Z (Z.of_nat n - 1) * inject_Z (fden f) <= inject_Z (fnum f))%Q).
  { assert (PQ : (0 < inject_Z (fden f))%Q) by (apply inj_pos; exact PD).
    assert (E : (inject_Z (fnum f) == inject_Z (fnum f) / inject_Z (fden f) * inject_Z (fden f))%Q) by (field; apply pos_nz; exact PQ).
    rewrite E. apply Qmult_le_compat_r; [exact Q|lra]. }
  rewrite <- inject_Z_mult, <- Zle_Qle in Q2. lia.
Qed.
Print Assumptions C22_at_most_last_shard_lost_partial.

(** The property as stated fails: with the ratios 7, 2, 1 and ten shards the last shard belongs to no
    part (and the third part is empty). *)
Definition names10 : list string := ["s0"; "s1"; "s2"; "s3"; "s4"; "s5"; "s6"; "s7"; "s8"; "s9"]%string.
Theorem C22_last_shard_lost_refuted :
  ratio_split names10 [("train"%string, rnd 7 1); ("val"%string, rnd 2 1); ("test"%string, rnd 1 1)] =
  Ok [("train", ["s0"; "s1"; "s2"; "s3"; "s4"; "s5"; "s6"]); ("val", ["s7"; "s8"]); ("test", [])]%string.
Proof. vm_compute. reflexivity. Qed.

(** with 8, 1, 1 all shards are used *)
Example C22_nonvacuous :
  ratio_split names10 [("train"%string, rnd 8 1); ("val"%string, rnd 1 1); ("test"%string, rnd 1 1)] =
  Ok [("train", ["s0"; "s1"; "s2"; "s3"; "s4"; "s5"; "s6"; "s7"]); ("val", ["s8"]); ("test", ["s9"])]%string.
Proof. vm_compute. reflexivity. Qed.

(** ** pattern splits: a part contains exactly the shards matching its pattern, in order *)
Theorem C22_pattern_parts shards parts :
  NoDup (map fst parts) -> pattern_split shards parts = map (fun p => (fst p, filter (snd p) shards)) parts.
Proof.
  unfold pattern_split. assert (G : forall ps acc, NoDup (map fst acc ++ map fst ps) ->
    fold_left (fun acc (p : string * (string -> bool)) => dict_set acc (fst p) (filter (snd p) shards)) ps acc
    = acc ++ map (fun p => (fst p, filter (snd p) shards)) ps).
  { induction ps as [|p ps IH]; intros acc ND; cbn [fold_left map]; [rewrite app_nil_r; reflexivity|].
    cbn [map] in ND. rewrite dict_set_new.
    - rewrite IH; [rewrite <- app_assoc; reflexivity|]. rewrite map_app, <- app_assoc. exact ND.
    - apply NoDup_remove_2 in ND. intros I. apply ND. apply in_or_app. left. exact I. }
  intros ND. apply (G parts []). exact ND.
Qed.
Print Assumptions C22_pattern_parts.
