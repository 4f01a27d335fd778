(** Model of wrappers/buffer.py: SavableSampleBuffer (lines 38-198). *)
From Verif Require Import Base Dataset.

Section Buffer.
  Context {A : Type}.

  (** buffer.py:41-51: _buffer, _restore_keys (one list per worker), _restore_pending.
      [nw] is max(num_workers, 1). *)
  Record buffer := mkBuf { b_buf : list (list (sample A)); b_keys : list (list rkey); b_pend : bool }.

  Definition buf_init (nw : nat) : buffer := mkBuf (repeat [] nw) (repeat [] nw) false.

  Definition buf_at (w : nat) (b : buffer) : list (sample A) := nth w (b_buf b) [].
  Definition keys_at (w : nat) (b : buffer) : list rkey := nth w (b_keys b) [].

  (** set worker [w]'s two lists *)
  Definition buf_set (w : nat) (l : list (sample A)) (ks : list rkey) (b : buffer) : buffer :=
    mkBuf (upd (b_buf b) w l) (upd (b_keys b) w ks) (b_pend b).

  Definition clear_others {X} (w : nat) (l : list (list X)) : list (list X) :=
    map (fun p => if fst p =? w then snd p else []) (combine (seq 0 (length l)) l).

  Fixpoint restore_all (rs : rkey -> result (sample A)) (ks : list rkey) : result (list (sample A)) :=
    match ks with
    | [] => Ok []
    | k :: ks' => bind (rs k) (fun a => bind (restore_all rs ks') (fun l => Ok (a :: l)))
    end.

  (** buffer.py:59-70 worker_start *)
  Definition buf_start (rs : rkey -> result (sample A)) (w : nat) (b : buffer) : result buffer :=
    let b1 := mkBuf (clear_others w (b_buf b)) (clear_others w (b_keys b)) (b_pend b) in
    bind (if b_pend b1 then
            if (length (buf_at w b1) =? 0)%nat then
              bind (restore_all rs (keys_at w b1)) (fun l =>
                Ok (mkBuf (upd (b_buf b1) w l) (b_keys b1) false))
            else Err AssertionError
          else Ok b1)
         (fun b2 => if (length (buf_at w b2) =? length (keys_at w b2))%nat then Ok b2 else Err AssertionError).

  (** buffer.py:72-75 append *)
  Definition buf_append (w : nat) (a : sample A) (b : buffer) : buffer :=
    buf_set w (buf_at w b ++ [a]) (keys_at w b ++ [rk a]) b.

  (** list.pop(i) *)
  Definition remove_at {X} (i : nat) (l : list X) : list X := firstn i l ++ skipn (S i) l.

  (** buffer.py:90-92 pop; None is IndexError *)
  Definition buf_pop (w i : nat) (b : buffer) : option (sample A * buffer) :=
    match nth_error (buf_at w b) i with
    | Some a => Some (a, buf_set w (remove_at i (buf_at w b)) (remove_at i (keys_at w b)) b)
    | None => None
    end.

  (** buffer.py:94-99 flush *)
  Definition buf_flush (w : nat) (b : buffer) : list (sample A) * list rkey * buffer :=
    (buf_at w b, keys_at w b, buf_set w [] [] b).

  (** buffer.py:77-84 extend (with given keys) *)
  Definition buf_extend (w : nat) (l : list (sample A)) (ks : list rkey) (b : buffer) : buffer :=
    buf_set w (buf_at w b ++ l) (keys_at w b ++ ks) b.

  (** buffer.py:118-119 __len__ *)
  Definition buf_len (w : nat) (b : buffer) : nat := length (keys_at w b).

  (** buffer.py:121-125 save_state *)
  Definition buf_save (w : nat) (b : buffer) : list rkey := keys_at w b.
  (** buffer.py:127-131 merge_states *)
  Definition buf_merge (sts : list (option (list rkey))) : list (list rkey) :=
    map (fun s => match s with None => [] | Some l => l end) sts.
  (** buffer.py:133-143 restore_state *)
  Definition buf_restore (nw : nat) (m : option (list (list rkey))) : buffer :=
    match m with
    | None => buf_init nw
    | Some ks => mkBuf (repeat [] nw) ks true
    end.
End Buffer.
Arguments buffer : clear implicits.
