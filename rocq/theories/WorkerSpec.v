(** Vocabulary for the properties about WorkerConfig and WorkerRng (C07-C11). *)
From Coq Require Import QArith.
From Verif Require Import Base WorkerConfig Rng.
Local Open Scope Z_scope.

(** the data loader worker process with torch id [p] (of [num_workers c]), worker id offset [off] *)
Definition in_process (c : wcfg) (p off : Z) : wenv := mkEnv (Some (p, num_workers c)) off false [] None.
(** the main process *)
Definition main_process : wenv := mkEnv None 0 false [] None.

(** a sequence of uses of a WorkerRng and what they return *)
Inductive draw := DBelow (n : nat) | DChoice (ps : list Q) | DShuffle (n : nat).

Section Draws.
  Variable R : rng_ops.
  Definition do_draw (w : nat) (d : draw) (o : wrng R) : list nat * wrng R :=
    match d with
    | DBelow n => let '(i, o') := wrng_below w n o in ([i], o')
    | DChoice ps => let '(i, o') := wrng_choice_idx w ps o in ([i], o')
    | DShuffle n => wrng_shuffle w (seq 0 n) o
    end.
  Fixpoint do_draws (w : nat) (ds : list draw) (o : wrng R) : list (list nat) * wrng R :=
    match ds with
    | [] => ([], o)
    | d :: ds' => let '(x, o') := do_draw w d o in
                  let '(xs, o'') := do_draws w ds' o' in (x :: xs, o'')
    end.
End Draws.

(** *** contexts *)
Fixpoint body_raises (b : body) : option exn :=
  match b with
  | BRead => None
  | BRaise x => Some x
  | BCtx _ b => body_raises b
  | BSeq b1 b2 => match body_raises b1 with Some x => Some x | None => body_raises b2 end
  end.

(** what the nest should show: (innermost index, outermost index) at every read *)
Fixpoint body_reads (inner outer : Z) (b : body) : list (Z * Z) :=
  match b with
  | BRead => [(inner, outer)]
  | BRaise _ => []
  | BCtx idx b => body_reads idx outer b
  | BSeq b1 b2 => body_reads inner outer b1 ++ body_reads inner outer b2
  end.

Definition glob (n l : Z) (p : Z * Z) : Z * Z := (fst p * n + l, snd p * n + l).
