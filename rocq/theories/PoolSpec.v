(** C67: what the driver guarantees, and what users may do. *)
From Coq Require Import List Arith.
Import ListNotations.
From Verif Require Import PoolModel.

(** Two regions, by address and size, without a common byte. *)
Definition apart (a b : nat * nat) : Prop := fst a + snd a <= fst b \/ fst b + snd b <= fst a.
(** The driver gives memory that nobody has. *)
Definition driver_ok (d : driver) : Prop :=
  forall t live size base, d t live size = Some base -> 0 < size /\ forall h, In h live -> apart (base, size) h.
(** Views are created before they are used and not used after they are released; views from the pool belong to a context. *)
Fixpoint proper (ids : list nat) (os : list op) : Prop :=
  match os with
  | [] => True
  | New id _ pooled ctx :: os => ~ In id ids /\ (pooled = true -> ctx = true) /\ proper (id :: ids) os
  | Access id :: os => In id ids /\ proper ids os
  | Size id :: os => In id ids /\ proper ids os
  | Delete id :: os => In id ids /\ proper (remove Nat.eq_dec id ids) os
  end.
Definition start (lo hi : nat) (w : world) : Prop := exists p, new_pool lo hi = Some p /\ w = World p [] [] 0.
(** What a user knows after some calls and their results: the views that are there, with the bytes asked for and the pointer
    obtained. *)
Definition known := list (nat * (nat * option nat)).
Definition learn (k : known) (o : op) (r : res) : known :=
  match o, r with
  | New id req _ _, Done => (id, (req, None)) :: k
  | Access id, Ptr p => map (fun e => if fst e =? id then (id, (fst (snd e), Some p)) else e) k
  | Delete id, Done => filter (fun e => negb (fst e =? id)) k
  | _, _ => k
  end.
Fixpoint held (k : known) (os : list op) (rs : list res) : known :=
  match os, rs with o :: os, r :: rs => held (learn k o r) os rs | _, _ => k end.
