(** The memory pool of the GPU runtime (ispcrt/detail/gpu/GPUDevice.cpp 130-145, 614-962): shared memory views are chunks of
    larger allocations.  Addresses and sizes are natural numbers; one of the two pools of a context is modelled, the other one's
    allocations are like any other allocation of the program. *)
From Coq Require Import List Bool Arith.
Import ListNotations.

(** round_up_pow2 (130-145): 64 - clz (x - 1) is the number of binary digits of x - 1. *)
Definition round_up_pow2 (x : nat) : nat := if x <? 2 then x else 2 ^ S (Nat.log2 (x - 1)).

(** Maps with pointers as keys. *)
Fixpoint find_key {A} (k : nat) (l : list (nat * A)) : option A :=
  match l with [] => None | (k', a) :: l => if k =? k' then Some a else find_key k l end.
Definition erase {A} (k : nat) (l : list (nat * A)) : list (nat * A) := filter (fun e => negb (k =? fst e)) l.
Definition assign {A} (k : nat) (a : A) (l : list (nat * A)) : list (nat * A) := (k, a) :: erase k l.

(** ** Bulk (614-718) *)
(** b_id stands for the address of the object. *)
Record bulk := Bulk { b_id : nat; b_chunk : nat; b_num : nat; b_mem : option nat; b_init : nat; b_free : list nat; b_used : list (nat * nat) }.
Definition new_bulk (id chunk size : nat) : bulk := Bulk id chunk (size / chunk) None 0 [] [].
Definition full (b : bulk) : bool := negb (b_init b <? b_num b) && match b_free b with [] => true | _ => false end.
(** The driver: what the n-th request for size bytes gets, None for an error. *)
Definition driver := nat -> list (nat * nat) -> nat -> option nat.
Inductive got (A : Type) := Got (a : A) | Fail | Broken.
Arguments Got {A} a.
Arguments Fail {A}.
Arguments Broken {A}.
(** allocChunk (630-661), once the memory is there. *)
Definition take_chunk (base : nat) (b : bulk) : got (bulk * nat) :=
  match b_free b with
  | [] =>
      if b_init b <? b_num b then
        let ptr := base + b_chunk b * b_init b in
        Got (Bulk (b_id b) (b_chunk b) (b_num b) (Some base) (S (b_init b)) [] (assign ptr (b_init b) (b_used b)), ptr)
      else Broken                                   (* assert(false), 658 *)
  | i :: free =>
      let ptr := base + b_chunk b * i in
      Got (Bulk (b_id b) (b_chunk b) (b_num b) (Some base) (b_init b) free (assign ptr i (b_used b)), ptr)
  end.
(** freeChunk (664-671). *)
Definition free_chunk (ptr : nat) (b : bulk) : option bulk :=
  match find_key ptr (b_used b) with
  | None => None
  | Some i => Some (Bulk (b_id b) (b_chunk b) (b_num b) (b_mem b) (b_init b) (b_free b ++ [i]) (erase ptr (b_used b)))
  end.

(** ** ChunkedPool (722-830) *)
Record pool := Pool { p_min : nat; p_max : nat; p_lists : list (nat * list bulk); p_alloc : list (nat * nat); p_next : nat }.
Definition min_chunk (p : pool) : nat := 2 ^ p_min p.
Definition max_chunk (p : pool) : nat := 2 ^ p_max p.
(** The constructor (724-747); None: exception. *)
Definition new_pool (lo hi : nat) : option pool :=
  if (1 <=? lo) && (lo <=? 30) && (lo <=? hi) && (hi <=? 30) then
    Some (Pool lo hi (map (fun i => (2 ^ i, [new_bulk i (2 ^ i) (2 ^ hi)])) (seq lo (S hi - lo))) [] (S hi))
  else None.
Definition all_bulks (p : pool) : list bulk := flat_map snd (p_lists p).
Definition set_list (size : nat) (l : list bulk) (ls : list (nat * list bulk)) : list (nat * list bulk) :=
  map (fun e => if fst e =? size then (size, l) else e) ls.
(** The loop in allocate (762-773): full bulks go to the back; n: iterations left; true if the first one has room. *)
Fixpoint rotate (n : nat) (l : list bulk) : list bulk * bool :=
  match n, l with
  | S n, b :: r => if full b then rotate n (r ++ [b]) else (l, true)
  | _, _ => (l, false)
  end.
(** allocate (755-783).  The world's live allocations and number of driver calls go in and out. *)
Definition ask (d : driver) (t : nat) (hs : list (nat * nat)) (size : nat) : nat * list (nat * nat) * option nat :=
  match d t hs size with Some base => (S t, (base, size) :: hs, Some base) | None => (S t, hs, None) end.
Definition alloc_in (d : driver) (size : nat) (b : bulk) (t : nat) (hs : list (nat * nat)) : nat * list (nat * nat) * got (bulk * nat) :=
  match b_mem b with
  | Some base => (t, hs, take_chunk base b)
  | None => match ask d t hs size with
            | (t, hs, Some base) => (t, hs, take_chunk base b)
            | (t, hs, None) => (t, hs, Fail)         (* L0_THROW_IF, 709 *)
            end
  end.
Definition pool_alloc (d : driver) (size : nat) (p : pool) (t : nat) (hs : list (nat * nat)) : pool * nat * list (nat * nat) * got nat :=
  match find_key size (p_lists p) with
  | None | Some [] => (p, t, hs, Broken)
  | Some l =>
      match rotate (length l) l with
      | (b :: r, true) =>
          match alloc_in d (max_chunk p) b t hs with
          | (t, hs, Got (b', ptr)) =>
              (Pool (p_min p) (p_max p) (set_list size (b' :: r) (p_lists p)) (assign ptr (b_id b) (p_alloc p)) (p_next p), t, hs, Got ptr)
          | (t, hs, Fail) => (Pool (p_min p) (p_max p) (set_list size (b :: r) (p_lists p)) (p_alloc p) (p_next p), t, hs, Fail)
          | (t, hs, Broken) => (p, t, hs, Broken)
          end
      | (l, _) =>
          let b := new_bulk (p_next p) size (max_chunk p) in
          match alloc_in d (max_chunk p) b t hs with
          | (t, hs, Got (b', ptr)) =>
              (Pool (p_min p) (p_max p) (set_list size (l ++ [b']) (p_lists p)) (assign ptr (b_id b) (p_alloc p)) (S (p_next p)), t, hs, Got ptr)
          | (t, hs, Fail) => (Pool (p_min p) (p_max p) (set_list size (l ++ [b]) (p_lists p)) (p_alloc p) (S (p_next p)), t, hs, Fail)
          | (t, hs, Broken) => (p, t, hs, Broken)
          end
      end
  end.
(** deallocate (785-791); None: an assertion. *)
Fixpoint free_in (id ptr : nat) (l : list bulk) : option (list bulk) :=
  match l with
  | [] => Some []
  | b :: l =>
      match free_in id ptr l with
      | None => None
      | Some l' => if b_id b =? id then match free_chunk ptr b with Some b' => Some (b' :: l') | None => None end else Some (b :: l')
      end
  end.
Fixpoint free_lists (id ptr : nat) (ls : list (nat * list bulk)) : option (list (nat * list bulk)) :=
  match ls with
  | [] => Some []
  | (k, l) :: ls => match free_in id ptr l, free_lists id ptr ls with Some l, Some ls => Some ((k, l) :: ls) | _, _ => None end
  end.
Definition pool_free (ptr : nat) (p : pool) : option pool :=
  match find_key ptr (p_alloc p) with
  | None => None
  | Some id => match free_lists id ptr (p_lists p) with
               | Some ls => Some (Pool (p_min p) (p_max p) ls (erase ptr (p_alloc p)) (p_next p))
               | None => None
               end
  end.

(** ** MemoryView (832-962) *)
(** v_pool: m_useMemPool; v_ctx: created for a context, so that m_memPool is set. *)
Record view := View { v_req : nat; v_size : nat; v_ptr : option nat; v_pool : bool; v_ctx : bool }.
Record world := World { w_pool : pool; w_views : list (nat * view); w_hunks : list (nat * nat); w_time : nat }.
(** Calls of the interface: ispcrtNewMemoryView and ispcrtNewMemoryViewForContext, ispcrtSharedPtr, ispcrtSize, ispcrtRelease;
    views have numbers.  For shared views. *)
Inductive op := New (id req : nat) (pooled ctx : bool) | Access (id : nat) | Size (id : nat) | Delete (id : nat).
Inductive res := Done | Ptr (p : nat) | Bytes (n : nat) | Throw | Crash.

Definition set_view (id : nat) (v : view) (w : world) : list (nat * view) := assign id v (w_views w).
Definition free_hunk (p : nat) (hs : list (nat * nat)) : list (nat * nat) := erase p hs.
(** allocate (918-944). *)
Definition access (d : driver) (id : nat) (v : view) (w : world) : world * res :=
  match v_ptr v with
  | Some p => (w, Ptr p)                                    (* devicePtr, 881-885 *)
  | None =>
      if v_pool v && negb (v_ctx v) then (w, Crash)          (* m_memPool is null *)
      else if v_pool v && (v_size v <=? max_chunk (w_pool w)) then
        let n := Nat.max (round_up_pow2 (v_req v)) (min_chunk (w_pool w)) in
        match pool_alloc d n (w_pool w) (w_time w) (w_hunks w) with
        | (p, t, hs, Got ptr) => (World p (set_view id (View (v_req v) n (Some ptr) (v_pool v) (v_ctx v)) w) hs t, Ptr ptr)
        | (p, t, hs, Fail) => (World p (set_view id (View (v_req v) n None (v_pool v) (v_ctx v)) w) hs t, Throw)
        | (p, t, hs, Broken) => (w, Crash)
        end
      else
        match ask d (w_time w) (w_hunks w) (v_size v) with
        | (t, hs, Some base) => (World (w_pool w) (set_view id (View (v_req v) (v_size v) (Some base) (v_pool v) (v_ctx v)) w) hs t, Ptr base)
        | (t, hs, None) => (World (w_pool w) (w_views w) hs t, Throw)
        end
  end.
(** ~MemoryView (861-876). *)
Definition delete (id : nat) (v : view) (w : world) : world * res :=
  match v_ptr v with
  | None => (World (w_pool w) (erase id (w_views w)) (w_hunks w) (w_time w), Done)
  | Some p =>
      if v_pool v && negb (v_ctx v) then (w, Crash)
      else if v_pool v && (v_size v <=? max_chunk (w_pool w)) then
        match pool_free p (w_pool w) with
        | Some pl => (World pl (erase id (w_views w)) (w_hunks w) (w_time w), Done)
        | None => (w, Crash)
        end
      else (World (w_pool w) (erase id (w_views w)) (free_hunk p (w_hunks w)) (w_time w), Done)
  end.
Definition step (d : driver) (w : world) (o : op) : world * res :=
  match o with
  | New id req pooled ctx => (World (w_pool w) (assign id (View req req None pooled ctx) (w_views w)) (w_hunks w) (w_time w), Done)
  | Access id => match find_key id (w_views w) with Some v => access d id v w | None => (w, Crash) end
  | Size id => match find_key id (w_views w) with Some v => (w, Bytes (v_size v)) | None => (w, Crash) end
  | Delete id => match find_key id (w_views w) with Some v => delete id v w | None => (w, Crash) end
  end.
Fixpoint run (d : driver) (w : world) (os : list op) : world * list res :=
  match os with
  | [] => (w, [])
  | o :: os => let (w, r) := step d w o in let (w, rs) := run d w os in (w, r :: rs)
  end.
(** ~ChunkedPool, ~Bulk (618, 749-753): the context is destroyed when its last view is gone (861-876). *)
Definition destroy (w : world) : list (nat * nat) :=
  fold_left (fun hs b => match b_mem b with Some base => free_hunk base hs | None => hs end) (all_bulks (w_pool w)) (w_hunks w).
