(** Resumption as far as the contents of the samples are concerned (restore keys disregarded). *)
From Verif Require Import Base Dataset.

Definition content {P} (e : event (sample P)) : event P :=
  match e with Yield a => Yield (pl a) | Tau => Tau | Done => Done | Raise x => Raise x end.

(** the same contents, ends and errors in the same order *)
Definition same_contents {P} (D : dataset P) (w : nat) (s1 s2 : st D) : Prop :=
  forall cs, (exists l, emits w s1 l /\ map content l = cs) <-> (exists l, emits w s2 l /\ map content l = cs).

(** [resumable] for contents *)
Definition contents_resumable {P} (D : dataset P) (rst : bool) (nw : nat) : Prop :=
  forall w (s : st D) sts, w < nw -> reach w rst nw s -> length sts = nw ->
    nth_error sts w = Some (Some (ds_save D w (fst s))) ->
    same_contents w s (ds_restore D (Some (ds_merge D sts)) (ds_init D), ds_iter D).
