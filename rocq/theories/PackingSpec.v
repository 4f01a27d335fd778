(** What packing means. *)
From Coq Require Import String.
From Verif Require Import Base Dataset WrapSpec Wrappers BatchSpec.

Section Spec.
  Context {A B : Type}.
  (** the pre packer and the final packer of one worker *)
  Variable pre : nat -> list (sample A) -> ures (list (list (sample A))).
  Variable f : nat -> list A -> ures B.

  (** the groups chosen from one buffer full of samples: none if the pre packer skips it or fails *)
  Definition chosen (i : nat) (chunk : list (sample A)) : list (list (sample A)) :=
    match pre i chunk with UOk gs => gs | _ => [] end.

  (** ... from consecutive buffers, the first being number [i] *)
  Fixpoint chosen_all (i : nat) (chunks : list (list (sample A))) : list (list (sample A)) :=
    match chunks with [] => [] | c :: cs => chosen i c ++ chosen_all (S i) cs end.

  (** the packs made of the groups [gs], the first being number [j], with their restore keys; packs that
      the final packer skips are left out *)
  Fixpoint packs (j : nat) (gs : list (list (sample A))) : list (sample B) :=
    match gs with
    | [] => []
    | g :: gs' =>
        match f j (map pl g) with
        | UOk b => [mkS b (AStr "PackingDataset" :: AInt j :: map (fun a => ATup (rk a)) g)]
        | _ => []
        end ++ packs (S j) gs'
    end.

  (** complete epochs [eps], then an epoch in progress with the samples [xs]; [i] and [j]: number of
      buffers and groups before. Every epoch is cut into consecutive buffers of [size] samples, the last
      of which may be shorter. *)
  Inductive packed (size i j : nat) : list (list (sample A)) -> list (sample A) -> list (event (sample B)) -> Prop :=
  | pd_part xs full tail : xs = concat full ++ tail -> Forall (fun c => length c = size) full -> length tail < size ->
      packed size i j [] xs (map Yield (packs j (chosen_all i full)))
  | pd_epoch e eps xs chunks outs : groups size false e chunks ->
      packed size (i + length chunks) (j + length (chosen_all i chunks)) eps xs outs ->
      packed size i j (e :: eps) xs (epoch (packs j (chosen_all i chunks)) ++ outs).

  (** among the full buffers [full] of an epoch, the first being number [i], there are ten in a row from
      which no group was chosen, followed by another full buffer *)
  Definition drought (i : nat) (full : list (list (sample A))) : Prop :=
    exists k, k + 10 < length full /\ forall n, n < 10 -> chosen (i + k + n) (nth (k + n) full []) = [].

  (** no drought in any of the epochs [eps] and the epoch in progress [xs] *)
  Inductive no_drought (size i : nat) : list (list (sample A)) -> list (sample A) -> Prop :=
  | nd_part xs full tail : xs = concat full ++ tail -> Forall (fun c => length c = size) full -> length tail < size ->
      ~ drought i full -> no_drought size i [] xs
  | nd_epoch e eps xs full tail : e = concat full ++ tail -> Forall (fun c => length c = size) full -> length tail < size ->
      ~ drought i full ->
      no_drought size (i + length full + match tail with [] => 0 | _ => 1 end) eps xs -> no_drought size i (e :: eps) xs.
End Spec.

(** a final packer that is a generator: [h j l] are the samples it yields for the pack number [j]; the [m]-th
    gets the key (PackingDataset, j, m, keys of the group) *)
Section GenSpec.
  Context {A B : Type}.
  Variable pre : nat -> list (sample A) -> ures (list (list (sample A))).
  Variable h : nat -> list A -> list B.
  Fixpoint gen_packs (j : nat) (gs : list (list (sample A))) : list (sample B) :=
    match gs with
    | [] => []
    | g :: gs' =>
        let ys := h j (map pl g) in
        map (fun my => mkS (snd my) (AStr "PackingDataset" :: AInt j :: AInt (fst my) :: map (fun a => ATup (rk a)) g))
            (combine (seq 0 (length ys)) ys) ++ gen_packs (S j) gs'
    end.
  Inductive gen_packed (size i j : nat) : list (list (sample A)) -> list (sample A) -> list (event (sample B)) -> Prop :=
  | gp_part xs full tail : xs = concat full ++ tail -> Forall (fun c => length c = size) full -> length tail < size ->
      gen_packed size i j [] xs (map Yield (gen_packs j (chosen_all pre i full)))
  | gp_epoch e eps xs chunks outs : groups size false e chunks ->
      gen_packed size (i + length chunks) (j + length (chosen_all pre i chunks)) eps xs outs ->
      gen_packed size i j (e :: eps) xs (epoch (gen_packs j (chosen_all pre i chunks)) ++ outs).
End GenSpec.

(** number of buffers of the epochs [eps] *)
Definition n_buffers {X} (size : nat) (eps : list (list X)) : nat :=
  list_sum (map (fun e => group_count size false (length e)) eps).

(** the restore keys of the samples that a pack was made of, read off the pack's own restore key *)
Definition parts {B} (y : sample B) : list rkey :=
  match rk y with
  | _ :: _ :: keys => flat_map (fun a => match a with ATup k => [k] | _ => [] end) keys
  | _ => []
  end.
