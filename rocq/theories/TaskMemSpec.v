(** What is claimed of AllocMemory (C39) and of the implicit sync (C54). *)
From Coq Require Import ZArith List Bool.
From Verif Require Import TaskMemModel.
Import ListNotations.
Open Scope Z_scope.

(** The block lies inside its buffer. *)
Definition in_buffer (m : mem) (b : block) : Prop :=
  (b_buf b <= m_cur m)%nat /\ m_base m (b_buf b) <= b_addr b /\ b_addr b + b_size b <= m_base m (b_buf b) + m_size m (b_buf b).

Definition apart (b c : block) : Prop :=
  b_buf b <> b_buf c \/ b_addr b + b_size b <= b_addr c \/ b_addr c + b_size c <= b_addr b.

(** Reasonable requests: the alignment is a power of two, and size and alignment are at most 2^30. *)
Definition small (size : Z) (k : Z) : Prop := 0 <= size /\ 0 <= k /\ size + 2 ^ k <= 2 ^ 30.
Definition request_ok (r : Z * Z) : Prop := exists k, snd r = 2 ^ k /\ small (fst r) k.

(** As intervals of addresses. *)
Definition disjoint (b c : block) : Prop := b_addr b + b_size b <= b_addr c \/ b_addr c + b_size c <= b_addr b.

(** The member array and the results of operator new[] do not overlap. *)
Definition buffers_disjoint (m : mem) : Prop := forall j k, (j <= m_cur m)%nat -> (k <= m_cur m)%nat -> j <> k ->
  m_base m j + m_size m j <= m_base m k \/ m_base m k + m_size m k <= m_base m j.

(** Several uses of one task group: requests, then a sync. *)
Fixpoint rounds (m : mem) (rs : list (list (Z * Z))) : option mem :=
  match rs with
  | [] => Some m
  | r :: rs => match allocs m r [] with None => None | Some (_, m1) => rounds (mem_reset m1) rs end
  end.

Fixpoint has_launch (s : stm) : bool :=
  match s with SLaunch => true | SSeq a b | SIf a b => has_launch a || has_launch b | SLoop a => has_launch a | _ => false end.
Fixpoint has_return (s : stm) : bool :=
  match s with SReturn => true | SSeq a b | SIf a b => has_return a || has_return b | SLoop a => has_return a | _ => false end.

(** The text of [s] has a return before a launch that follows it (in [s]). *)
Fixpoint return_then_launch (s : stm) : bool :=
  match s with
  | SSeq a b | SIf a b => (has_return a && has_launch b) || return_then_launch a || return_then_launch b
  | SLoop a => return_then_launch a
  | _ => false
  end.
(** In no loop does a return come before a launch in the text. *)
Fixpoint loops_ok (s : stm) : bool :=
  match s with
  | SSeq a b | SIf a b => loops_ok a && loops_ok b
  | SLoop a => negb (return_then_launch a) && loops_ok a
  | _ => true
  end.


(** What the statements do, said of the source: the booleans as in [exec].  A return may sync or not. *)
Inductive behaves : stm -> bool -> bool -> out -> Prop :=
| b_skip h : behaves SSkip h h ONormal
| b_launch h : behaves SLaunch h true ONormal
| b_sync h : behaves SSync h false ONormal
| b_return h h2 : behaves SReturn h h2 OReturn
| b_break h : behaves SBreak h h OBreak
| b_continue h : behaves SContinue h h OContinue
| b_seq a b h1 h2 h3 r : behaves a h1 h2 ONormal -> behaves b h2 h3 r -> behaves (SSeq a b) h1 h3 r
| b_leave a b h1 h2 r : behaves a h1 h2 r -> r <> ONormal -> behaves (SSeq a b) h1 h2 r
| b_then a b h1 h2 r : behaves a h1 h2 r -> behaves (SIf a b) h1 h2 r
| b_else a b h1 h2 r : behaves b h1 h2 r -> behaves (SIf a b) h1 h2 r
| b_stop a h : behaves (SLoop a) h h ONormal
| b_again a h1 h2 h3 r0 r : behaves a h1 h2 r0 -> r0 = ONormal \/ r0 = OContinue -> behaves (SLoop a) h2 h3 r -> behaves (SLoop a) h1 h3 r
| b_loop_break a h1 h2 : behaves a h1 h2 OBreak -> behaves (SLoop a) h1 h2 ONormal
| b_loop_return a h1 h2 : behaves a h1 h2 OReturn -> behaves (SLoop a) h1 h2 OReturn.

(** The room needed for some requests, wherever they are placed. *)
Definition room (reqs : list (Z * Z)) : Z := fold_right (fun r n => fst r + snd r + n) 0 reqs.
