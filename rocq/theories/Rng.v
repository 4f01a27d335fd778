(** Model of rng.py: WorkerRng (lines 49-127).

    torch.Generator is abstract: a state type and three deterministic draws.  What is assumed of it
    is [rng_ok] (a hypothesis of the theorems that need it, never an axiom); [lcg] below is a
    concrete instance that satisfies it. *)
From Coq Require Import QArith.
From Verif Require Import Base.
Local Close Scope Q_scope.
Local Open Scope nat_scope.

Record rng_ops := mkRng {
  rng_t : Type;
  rng_seed : nat -> rng_t;                       (* torch.Generator().manual_seed(worker_seed()) in worker w *)
  rng_below : nat -> rng_t -> nat * rng_t;       (* torch.randint(0, n, ()) *)
  rng_mult : list Q -> rng_t -> nat * rng_t;     (* torch.multinomial(probs, 1, replacement=True) *)
  rng_perm : nat -> rng_t -> list nat * rng_t    (* torch.randperm(n) *)
}.
Arguments rng_below : clear implicits.
Arguments rng_mult : clear implicits.
Arguments rng_perm : clear implicits.

(** The contract of the three torch functions. *)
Record rng_ok (R : rng_ops) : Prop := {
  ok_below : forall n r, 0 < n -> fst (rng_below R n r) < n;
  ok_mult : forall ps r, (exists p, In p ps /\ (0 < p)%Q) -> (forall p, In p ps -> (0 <= p)%Q) ->
    exists p, nth_error ps (fst (rng_mult R ps r)) = Some p /\ (0 < p)%Q;
  ok_perm : forall n r, Permutation (fst (rng_perm R n r)) (seq 0 n)
}.

Section WorkerRng.
  Variable R : rng_ops.

  (** rng.py:53-57: _rng, _restore_states *)
  Record wrng := mkWrng { g_cur : option (rng_t R); g_pend : option (list (option (rng_t R))) }.

  Definition wrng_init : wrng := mkWrng None None.

  (** rng.py:62-80, the [rng] property: the generator that will be used, and the updated object.
      Simplification: an out-of-range worker index (IndexError) yields the seeded generator. *)
  Definition wrng_force (w : nat) (o : wrng) : rng_t R * wrng :=
    let r :=
      match g_cur o, g_pend o with
      | Some r, None => r
      | _, Some l => match nth_error l w with Some (Some r) => r | _ => rng_seed R w end
      | None, None => rng_seed R w
      end in
    (r, mkWrng (Some r) None).

  Definition wrng_put (r : rng_t R) : wrng := mkWrng (Some r) None.

  (** rng.py:82-83 *)
  Definition wrng_below (w n : nat) (o : wrng) : nat * wrng :=
    let '(r, _) := wrng_force w o in
    let '(i, r') := rng_below R n r in (i, wrng_put r').

  (** rng.py:85-89: with a single alternative no randomness is consumed *)
  Definition wrng_choice_idx (w : nat) (ps : list Q) (o : wrng) : nat * wrng :=
    match ps with
    | [_] => (0, o)
    | _ => let '(r, _) := wrng_force w o in
           let '(i, r') := rng_mult R ps r in (i, wrng_put r')
    end.

  (** rng.py:97-100: [l[p[i]] for i in range(len(l))] *)
  Definition wrng_shuffle {A} (w : nat) (l : list A) (o : wrng) : list A * wrng :=
    let '(r, _) := wrng_force w o in
    let '(p, r') := rng_perm R (length l) r in
    (flat_map (fun i => match nth_error l i with Some x => [x] | None => [] end) p, wrng_put r').

  (** list.pop(i) *)
  Definition remove_nth {A} (i : nat) (l : list A) : list A := firstn i l ++ skipn (S i) l.

  (** rng.py:102-103 *)
  Definition wrng_rand_pop {A} (w : nat) (l : list A) (o : wrng) : option A * list A * wrng :=
    let '(i, o') := wrng_below w (length l) o in (nth_error l i, remove_nth i l, o').

  (** rng.py:105-108.  save_state uses the [rng] property, so it also materialises the generator on
      the object; the object before and after behave alike ([wrng_force] is idempotent), so the
      model only returns the saved value. *)
  Definition wrng_save (w : nat) (o : wrng) : option (rng_t R) := Some (fst (wrng_force w o)).

  (** rng.py:110-112 *)
  Definition wrng_merge (sts : list (option (option (rng_t R)))) : list (option (rng_t R)) :=
    map (fun s => match s with None => None | Some r => r end) sts.

  (** rng.py:114-119: restore_state(None) only forgets pending states, it keeps a used generator *)
  Definition wrng_restore (m : option (list (option (rng_t R)))) (o : wrng) : wrng :=
    match m with
    | None => mkWrng (g_cur o) None
    | Some l => mkWrng (g_cur o) (Some l)
    end.
End WorkerRng.

(** A concrete generator (for non-vacuity examples only): a linear congruential generator. *)
Definition lcg_next (x : nat) : nat := (x * 5 + 3) mod 64.

Fixpoint first_pos_any (ps : list Q) : nat :=
  match ps with [] => 0 | p :: ps' => if Qle_bool p 0 then S (first_pos_any ps') else 0 end.

Definition lcg_mult (ps : list Q) (x : nat) : nat :=
  let i := x mod (length ps) in
  match nth_error ps i with
  | Some p => if Qle_bool p 0 then first_pos_any ps else i
  | None => first_pos_any ps
  end.

(** rotation by x: a permutation depending on the state *)
Definition rot_perm (n x : nat) : list nat := skipn (x mod n) (seq 0 n) ++ firstn (x mod n) (seq 0 n).

Definition lcg : rng_ops :=
  {| rng_t := nat;
     rng_seed := fun w => w * 7 + 1;
     rng_below := fun n x => (x mod n, lcg_next x);
     rng_mult := fun ps x => (lcg_mult ps x, lcg_next x);
     rng_perm := fun n x => (rot_perm n x, lcg_next x) |}.
