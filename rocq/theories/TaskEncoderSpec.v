(** What a task encoder's validation pipeline should deliver, on contents only. *)
From Coq Require Import String.
From Verif Require Import Base Dataset WrapSpec Wrappers MapModel BatchSpec TaskEncoder.
Local Open Scope string_scope.
Local Open Scope list_scope.
Local Open Scope nat_scope.

(** the epochs [eps] (contents) are what worker [w] gets first from the freshly built dataset *)
Definition runs {V} (w : nat) (D : dataset V) (eps : list (list V)) : Prop :=
  exists xss, emits w (fresh D) (concat (map epoch xss)) /\ map (map pl) xss = eps.

(** what one call of a user function contributes: its result, nothing if it is skipped or fails (the error is
    logged), or all that it yields *)
Definition outputs {A B} (f : ufn A B) (w i : nat) (a : A) : list B :=
  match f with
  | Fn f => match f w i a with UOk b => [b] | _ => [] end
  | GenFn f => fst (f w i a)
  end.

(** [f] applied to each element, the calls being numbered from [i] *)
Fixpoint each {A B} (f : nat -> A -> list B) (i : nat) (l : list A) : list B :=
  match l with [] => [] | a :: l' => f i a ++ each f (S i) l' end.

(** ... to each element of each epoch, the numbering going on through the epochs *)
Fixpoint each_epoch {A B} (f : nat -> A -> list B) (i : nat) (eps : list (list A)) : list (list B) :=
  match eps with [] => [] | l :: eps' => each f i l :: each_epoch f (i + length l) eps' end.

(** no fatal (system) exception; a generator runs to its end *)
Definition no_failure {A B} (f : ufn A B) : Prop :=
  match f with
  | Fn f => forall w i a, f w i a <> UFatal
  | GenFn f => forall w i a, snd (f w i a) = GEnd
  end.

(** the value of a key in a dict *)
Definition entry (k : string) (d : list (string * string)) : option string :=
  option_map snd (find (fun p => String.eqb (fst p) k) d).

(** a cooker applies to a crude sample with the given subflavor and subflavors if all its conditions hold *)
Definition applies {V} (c : @cooker V) (x : V) (sub : string) (subs : list (string * string)) : Prop :=
  (forall s, ck_is_subflavor c = Some s -> sub = s) /\
  (forall want k v, ck_has_subflavors c = Some want -> In (k, v) want -> entry k subs = Some v) /\
  (forall p, ck_condition c = Some p -> p x = true).

(** the output epochs of a validation pipeline without grouping and packing, in worker [w], given the epochs of the
    data: each sample is cooked, encoded, then consecutive samples are batched and the batches encoded *)
Definition val_epochs {V K} crude (e : @encoder V K) (batch_size : option nat) (drop_last : bool) (w : nat) (ins outs : list (list V)) : Prop :=
  let cooked := match te_cookers e with [] => ins | cs => each_epoch (outputs (Fn (cook_crude_sample crude cs)) w) 0 ins end in
  let encoded := if m_base (te_encode e) then cooked else each_epoch (outputs (m_fn (te_encode e)) w) 0 cooked in
  match batch_size with
  | None => outs = encoded
  | Some size =>
      exists gss, Forall2 (groups size drop_last) encoded gss /\
        let batched := each_epoch (outputs (m_fn (te_batch e)) w) 0 gss in
        outs = if m_base (te_encode_batch e) then batched else each_epoch (outputs (m_fn (te_encode_batch e)) w) 0 batched
  end.

(** the encoder's functions do not fail for good, and the batcher is not a generator *)
Definition enc_ok {V K} (e : @encoder V K) : Prop :=
  (forall c w i x, In c (te_cookers e) -> ck_cook c w i x <> UFatal) /\
  no_failure (m_fn (te_encode e)) /\ no_failure (m_fn (te_encode_batch e)) /\
  exists f, m_fn (te_batch e) = Fn f /\ no_failure (Fn f).

(** the data of several datasets, one after the other: epoch by epoch *)
Definition joined_epochs {V} (m : nat) (eps : list (list (list V))) : list (list V) :=
  map (fun t => flat_map (fun ep => nth t ep []) eps) (seq 0 m).

(** conditions under which a pipeline resumes exactly (see C34_mapgen_resume_refuted, C31_after_skip_refuted,
    C33_restores_changed_samples_refuted for why) *)
Definition steady {A B} (f : ufn A B) : Prop :=
  match f with
  | Fn _ => True
  | GenFn f => forall w i a, length (fst (f w i a)) <= 1 /\ snd (f w i a) = GEnd
  end.
Definition enc_steady {V K} (e : @encoder V K) : Prop :=
  steady (m_fn (te_encode e)) /\ steady (m_fn (te_encode_batch e)) /\
  (exists f, m_fn (te_batch e) = Fn f /\ forall w i l, exists b, f w i l = UOk b) /\
  (forall pre w i l gs, te_select e = Some pre -> pre w i l = UOk gs -> incl (concat gs) l) /\
  (forall p st, te_pack e = Some (p, st) -> exists f, p = Fn f).

(** all methods that are overridden are marked stateless *)
Definition all_stateless {V K} (e : @encoder V K) : Prop :=
  (m_base (te_encode e) = false -> m_stateless (te_encode e) = true) /\
  m_stateless (te_batch e) = true /\
  (m_base (te_encode_batch e) = false -> m_stateless (te_encode_batch e) = true) /\
  (forall p st, te_pack e = Some (p, st) -> st = true).
