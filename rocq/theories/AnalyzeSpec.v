(** What the debug heatmap is meant to show: specification of C58, in terms of what the ranks yielded. *)
From Coq Require Import String.
From Verif Require Import Base AnalyzeDebug.
Local Open Scope list_scope.
Local Open Scope nat_scope.

(** (key, step, rank) for every sample key: step by step, in each step rank by rank.  [batches]: for every rank, the keys of
    the batches its loader yielded, None for a batch without keys. *)
Definition keys_at {K} (s : nat) (bs : list (option (list K))) : list K :=
  match nth_error bs s with Some (Some ks) => ks | _ => [] end.

Definition shown (steps : nat) (batches : list (list (option (list string)))) : list (string * nat * nat) :=
  flat_map (fun s =>
    flat_map (fun i => map (fun k => (k, s, i)) (keys_at s (nth i batches []))) (seq 0 (List.length batches)))
    (seq 0 steps).

(** The keys of all (key, step, rank) in the order in which they first occur. *)
Fixpoint firsts (acc l : list string) : list string :=
  match l with
  | [] => acc
  | k :: l' => firsts (if existsb (String.eqb k) acc then acc else acc ++ [k]) l'
  end.

(** the keys are numbered by their position in [idx] *)
Definition numbered (idx : list string) (e : string * nat * nat) (p : nat * nat * nat) : Prop :=
  let '(k, s, i) := e in let '(id, s', i') := p in nth_error idx id = Some k /\ s' = s /\ i' = i.

(** The picture of points (y, x, source) at zoom fs (y) and fc (x): pixel (r, c) is the sum of the colours of the points in the
    fs * fc square at (r * fs, c * fc). *)
Definition pixel (colour_of : nat -> nat) (fs fc r c : nat) (ps : list (nat * nat * nat)) : nat :=
  list_sum (map (fun '(y, x, src) =>
    if (r * fs <=? y) && (y <? (r + 1) * fs) && (c * fc <=? x) && (x <? (c + 1) * fc) then colour_of src else 0) ps).

Definition picture (colour_of : nat -> nat) (fs fc h w : nat) (ps : list (nat * nat * nat)) : list (list nat) :=
  map (fun r => map (fun c => pixel colour_of fs fc r c ps) (seq 0 w)) (seq 0 h).

(** [h] pixels are needed, and enough, for values vs at zoom f; the zoom is a power of two, and is needed: with half of it the
    values would not fit into [size] pixels *)
Definition fits (size f h : nat) (vs : list nat) : Prop :=
  (exists k, f = 2 ^ k) /\ h <= size /\
  (forall v, In v vs -> v < h * f) /\
  (h = 0 \/ exists v, In v vs /\ (h - 1) * f <= v) /\
  (f = 1 \/ exists v, In v vs /\ size * (f / 2) <= v).

(** the dataset whose configuration describes the whole pipeline: the first one below *)
Inductive leads : pipeline -> pipeline -> Prop :=
| leads_web : forall t q, leads (Web t q) (Web t q)
| leads_joined : forall t qs, leads (Joined t qs) (Joined t qs)
| leads_wrapped : forall d l, leads d l -> leads (Wrapped d) l
| leads_cooked : forall c d l, leads d l -> leads (Cooked c d) l
| leads_logged : forall d l, leads d l -> leads (Logged d) l
| leads_blended : forall d ds l, leads d l -> leads (Blended (d :: ds)) l
| leads_concatenated : forall d ds l, leads d l -> leads (Concatenated (d :: ds)) l.
