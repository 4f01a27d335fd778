(** Specification for metadatasets: a leaf is reached by a path through the tree; [chain] lists the
    settings of the references passed, outermost first; [w] is the product of the relative weights
    (weight / sum of the weights of the blend) along the path. *)
From Coq Require Import String QArith.
From Verif Require Import Base Meta.
Local Close Scope Q_scope.
Local Open Scope nat_scope.

(** set by the reference (empty strings count as not set) *)
Definition set_str (x : option string) : option string := match x with Some EmptyString => None | _ => x end.

Inductive target := TLoad (l : loader) | TJoin (s : settings) (ls : list loader).

(** [path_to sp m chain w t]: asked for split [sp], [m] contains target [t] *)
Inductive path_to : string -> meta -> list settings -> Q -> target -> Prop :=
| pt_load sp l : path_to sp (MLoader l) [] 1 (TLoad l)
| pt_join sp s ls : path_to sp (MJoin s ls) [] 1 (TJoin s ls)
| pt_ref sp s m ch w t :
    path_to (match set_str (s_split s) with Some x => x | None => sp end) m ch w t -> path_to sp (MRef s m) (s :: ch) w t
| pt_blend sp l i dw m ch w t : nth_error l i = Some (dw, m) -> path_to sp m ch w t ->
    path_to sp (MBlend l) ch (w * (dw / qsum (map fst l))) t
| pt_splits sp l m ch w t : find (fun kv => String.eqb sp (fst kv)) l = Some (sp, m) -> path_to sp m ch w t ->
    path_to sp (MSplits l) ch w t.

Fixpoint first_set {A} (l : list (option A)) : option A :=
  match l with [] => None | Some x :: _ => Some x | None :: l' => first_set l' end.

(** the effective settings after the references [chain], given the outer arguments *)
Definition eff_split (a : args) (chain : list settings) : string :=
  match first_set (rev (map (fun s => set_str (s_split s)) chain)) with Some x => x | None => a_split a end.
Definition eff_subflavor (a : args) (chain : list settings) : option string :=
  first_set (map set_str (a_subflavor a :: map s_subflavor chain)).
(** the value of one subflavors key *)
Definition eff_subflavors (a : args) (chain : list settings) (k : string) : option nat :=
  first_set (map (fun d => match d with Some d => d_get k d | None => None end) (a_subflavors a :: map s_subflavors chain)).
Definition eff_mult (a : args) (chain : list settings) : Z :=
  fold_right Z.mul (a_mult a) (map s_mult chain).

(** weights given in the files: not negative, every blend blends something *)
Inductive proper : meta -> Prop :=
| pr_load l : proper (MLoader l)
| pr_join s ls : proper (MJoin s ls)
| pr_ref s m : proper m -> proper (MRef s m)
| pr_blend l : l <> [] -> (forall dw m, In (dw, m) l -> (0 <= dw)%Q /\ proper m) -> proper (MBlend l)
| pr_splits l : (forall k m, In (k, m) l -> proper m) -> proper (MSplits l).
