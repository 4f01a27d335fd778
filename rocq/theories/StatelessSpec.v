(** What stateless(restore_seeds=True) promises (C47), without reference to how it is done. *)
From Coq Require Import String.
From Verif Require Import Base WorkerConfig Stateless.
Local Open Scope list_scope.

Section Spec.
  Variables (L : libs) (X Y : Type) (fn : genfn L X Y).

  (** the first [n] outcomes of a generator when nothing else touches the random generators *)
  Fixpoint undisturbed (n : nat) (it : g_st fn) (s : sysrng L) : list (gout Y) :=
    match n with
    | O => []
    | S n' =>
        let '(o, it', s') := g_next fn it s in
        match o with
        | GYield _ => o :: undisturbed n' it' s'
        | GStop _ => repeat (GStop Y) (S n')
        | GRaise _ _ => o :: repeat (GStop Y) n'
        end
    end.
End Spec.

(** a use of a decorated function: the caller has put the random generators in some state *)
Record use (L : libs) (X : Type) := mkUse { u_rng : sysrng L; u_cfg : wcfg; u_env : wenv; u_arg : X }.

Section Uses.
  Variables (L : libs) (sha1 : string -> Z) (X Y : Type).

  (** calls of a plain function, one after the other in one process; for each the result and the state of
      the random generators afterwards *)
  Fixpoint calls (fn : X -> sysrng L -> result Y * sysrng L) (us : list (use L X)) (seed : option Z) : list (result Y * sysrng L) :=
    match us with
    | [] => []
    | u :: us' =>
        let '(r, p) := seed_wrapper sha1 fn (u_cfg u) (u_env u) (u_arg u) (mkProc (u_rng u) seed) in
        (r, p_rng p) :: calls fn us' (p_seed p)
    end.

  (** calls of next() on one generator object; before each one the caller puts the random generators in
      some state, and the closure variable may have been set by uses of other generator objects *)
  Fixpoint nexts (fn : genfn L X Y) (cs : list (sysrng L * option Z * wcfg * wenv)) (w : wgen fn) : list (gout Y * sysrng L) :=
    match cs with
    | [] => []
    | (r, seed, c, e) :: cs' =>
        let '(o, w', p) := w_next sha1 c e w (mkProc r seed) in
        (o, p_rng p) :: nexts cs' w'
    end.
End Uses.
