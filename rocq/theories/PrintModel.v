(** Model of the print statement and of assert.

    Modelled: the argument types and their encodings ([lProcessPrintArgType],
    [lEncodeType], src/stmt.cpp 3520-3625), the check of the format string, the run time
    function [__do_print] (builtins/builtins-c-cpu.cpp, builtins/builtins-c-common.hpp)
    with the sizes of its buffers, the splitting of a print into several calls of printf
    for Xe targets (src/stmt.cpp 3642-3990), and the assertion functions of
    builtins/util.m4, builtins/generic.ispc and builtins/util-xe.m4.

    Not modelled: the text printf makes of a floating-point number or a pointer (a
    parameter of the definitions: nothing is assumed about it but that it contains no
    null character), and the output stream. *)

From Coq Require Import ZArith Bool Ascii String DecimalString List.
From Verif Require Import Bits.
Import ListNotations.
Open Scope Z_scope.

Definition text := list ascii.
Definition NUL : ascii := "000".
Definition str (s : string) : text := list_ascii_of_string s.

(** * The compiler *)

(** The types of printed expressions: the atomic types, pointers, and all others. *)
Inductive kind : Type :=
| KBool | KInt8 | KUInt8 | KInt16 | KUInt16 | KInt32 | KUInt32 | KInt64 | KUInt64
| KFloat16 | KFloat | KDouble | KPtr | KOther.

(** The types [__do_print] knows (src/builtins-info.h 20-39). *)
Inductive base : Type := TBool | TInt | TUInt | TFloat | TLong | TULong | TDouble | TPtr.

(** [getEncoding4Uniform], [getEncoding4Varying] (src/builtins-info.h 53-69): characters
    from 1 on. *)
Definition encode_uniform (b : base) : Z :=
  match b with
  | TBool => 1 | TInt => 2 | TUInt => 3 | TFloat => 4 | TLong => 5 | TULong => 6 | TDouble => 7 | TPtr => 8
  end.
Definition encode_varying (b : base) : Z := encode_uniform b + 8.

(** [lEncodeType] (src/stmt.cpp 3526-3577); None is the character 0. *)
Definition encode_type (varying : bool) (k : kind) : option Z :=
  let e b := Some (if varying then encode_varying b else encode_uniform b) in
  match k with
  | KBool => e TBool
  | KInt32 => e TInt
  | KUInt32 => e TUInt
  | KFloat => e TFloat
  | KInt64 => e TLong
  | KUInt64 => e TULong
  | KDouble => e TDouble
  | KPtr => e TPtr
  | _ => None
  end.

(** The bits an argument has in memory after the casts of [lProcessPrintArgType]
    (src/stmt.cpp 3584-3625).  A value is the number it denotes; for a boolean 0 or 1,
    for a floating-point number any code of it, which the casts of float16 to float and
    float to double keep. *)
Definition cast_kind (k : kind) : kind :=
  match k with
  | KInt8 | KUInt8 | KInt16 | KUInt16 => KInt32
  | KFloat16 => KFloat
  | k => k
  end.

Definition stored (k : kind) (v : Z) : Z :=
  match cast_kind k with
  | KBool => if v =? 0 then 0 else 1
  | KInt32 | KUInt32 => wrapu 32 v
  | KInt64 | KUInt64 | KPtr => wrapu 64 v
  | _ => v
  end.

(** An argument of print: its type and its values, one for each instance if it is
    varying, else one. *)
Record arg := mk_arg { a_varying : bool; a_kind : kind; a_vals : list Z }.

(** [lProcessPrintArgType] (src/stmt.cpp 3584-3625): the character for the type and what
    is in memory. *)
Definition process_arg (a : arg) : option (Z * list Z) :=
  match encode_type (a_varying a) (cast_kind (a_kind a)) with
  | Some c => Some (c, map (stored (a_kind a)) (a_vals a))
  | None => None
  end.

Fixpoint process_args (l : list arg) : option (list Z * list (list Z)) :=
  match l with
  | [] => Some ([], [])
  | a :: l => match process_arg a, process_args l with
              | Some (c, v), Some (cs, vs) => Some (c :: cs, v :: vs)
              | _, _ => None
              end
  end.

(** [checkFormatString] (src/stmt.cpp 3634-3645). *)
Definition is_percent (c : ascii) : bool := Ascii.eqb c "%".
Definition check_format (format : text) (nargs : nat) : bool :=
  Nat.eqb (List.length (filter is_percent format)) nargs.

(** * [__do_print] *)

Definition RES_STR_SIZE : nat := 8 * 1024 + 4.
Definition ARG_STR_SIZE : nat := 1024.

(** What snprintf writes for a value of each type ([type2Specifier],
    src/builtins-info.h 95-110): integers in decimal, the others as [number] says. *)
Definition decimal (v : Z) : text := str (NilZero.string_of_int (Z.to_int v)).

Definition specifier (b : base) : text :=
  str (match b with
       | TBool => "%s" | TInt => "%d" | TUInt => "%u" | TFloat => "%f" | TLong => "%lld" | TULong => "%llu"
       | TDouble => "%f" | TPtr => "%p"
       end).

Section Number.
Variable number : base -> Z -> text.

(** [ValueAdapter] (builtins-c-common.hpp 20-22, 101-108) and the conversion. *)
Definition bool_text (v : Z) : text := if v =? 0 then str "false" else str "true".
Definition convert (b : base) (bits : Z) : text :=
  match b with
  | TBool => bool_text bits
  | TInt => decimal (wraps 32 bits)
  | TUInt => decimal (wrapu 32 bits)
  | TLong => decimal (wraps 64 bits)
  | TULong => decimal (wrapu 64 bits)
  | _ => number b bits
  end.

(** Writing to a buffer; None if outside of it. *)
Fixpoint put (buf : text) (k : nat) (c : ascii) : option text :=
  match buf, k with
  | [], _ => None
  | _ :: r, O => Some (c :: r)
  | x :: r, S k => match put r k c with Some r => Some (x :: r) | None => None end
  end.

Fixpoint puts (buf : text) (k : nat) (s : text) : option text :=
  match s with
  | [] => Some buf
  | c :: s => match put buf k c with Some buf => puts buf (S k) s | None => None end
  end.

(** [snprintf(&res[k], ARG_STR_SIZE, ...)]: at most ARG_STR_SIZE - 1 characters and a
    null character are written, wherever in the buffer [k] is; the length of the whole
    text is returned. *)
Definition snprintf (buf : text) (k : nat) (s : text) : option (text * nat) :=
  match puts buf k (firstn (ARG_STR_SIZE - 1) s ++ [NUL]) with
  | Some buf => Some (buf, List.length s)
  | None => None
  end.

(** [uniform2Str] (builtins-c-cpu.cpp 83-89); [garbage] is the uninitialised buffer. *)
Definition uniform_to_str (garbage : text) (b : base) (vals : list Z) : option text :=
  match snprintf garbage 0 (convert b (nth 0 vals 0)) with
  | Some (buf, _) => Some buf
  | None => None
  end.

(** [writeOffLane] (builtins-c-cpu.cpp 122-138). *)
Definition write_off_lane (buf : text) (k : nat) (b : base) (v : Z) : option (text * nat) :=
  match b with
  | TBool => match snprintf buf k (str "_________") with
             | Some (buf, n) => Some (buf, (k + n)%nat)
             | None => None
             end
  | _ => match snprintf buf k (str "((") with
         | Some (buf, n) =>
             match snprintf buf (k + n) (convert b v) with
             | Some (buf, n') =>
                 match snprintf buf (k + n + n') (str "))") with
                 | Some (buf, n'') => Some (buf, (k + n + n' + n'')%nat)
                 | None => None
                 end
             | None => None
             end
         | None => None
         end
  end.

(** The loop of [varying2Str] (builtins-c-cpu.cpp 91-111) from lane [lane] on. *)
Fixpoint write_lanes (width : nat) (mask : Z) (b : base) (vals : list Z) (lanes : list nat) (buf : text) (k : nat)
  : option (text * nat) :=
  match lanes with
  | [] => Some (buf, k)
  | lane :: lanes =>
      let v := nth lane vals 0 in
      let r := if Z.testbit mask (Z.of_nat lane) then
                 match snprintf buf k (convert b v) with
                 | Some (buf, n) => Some (buf, (k + n)%nat)
                 | None => None
                 end
               else write_off_lane buf k b v in
      match r with
      | Some (buf, k) =>
          match put buf k (if Nat.eqb lane (width - 1) then "]" else ",")%char with
          | Some buf => write_lanes width mask b vals lanes buf (S k)
          | None => None
          end
      | None => None
      end
  end.

Definition varying_to_str (garbage : text) (width : nat) (mask : Z) (b : base) (vals : list Z) : option text :=
  match put garbage 0 "["%char with
  | Some buf => match write_lanes width mask b vals (seq 0 width) buf 1 with
                | Some (buf, k) => put buf k NUL
                | None => None
                end
  | None => None
  end.

(** [Arg2Str] (builtins-c-common.hpp 84-95): the types are tried one after another.  With
    no type for the character the buffer stays uninitialised; reading it is undefined. *)
Definition arg_to_str (garbage : text) (width : nat) (mask : Z) (c : Z) (vals : list Z) : option text :=
  let suitable b rest :=
    if c =? encode_uniform b then uniform_to_str garbage b vals
    else if c =? encode_varying b then varying_to_str garbage width mask b vals
    else rest in
  suitable TBool (suitable TInt (suitable TUInt (suitable TFloat (suitable TLong (suitable TULong
    (suitable TDouble (suitable TPtr None))))))).

(** [CopyPlainText] (builtins-c-common.hpp 27-36, 110-115): the characters up to a
    percent sign, the end or the limit, and the rest of the format.  The format is the C
    string of the characters before the first null character. *)
Fixpoint copy_plain (format : text) (room : nat) : text * text * nat :=
  match format, room with
  | c :: r, S room' =>
      if is_percent c || Ascii.eqb c NUL then ([], format, room)
      else let '(t, r, room) := copy_plain r room' in (c :: t, r, room)
  | _, _ => ([], format, room)
  end.

(** [CopyFullText] of a buffer (38-48, 125-133); None if its end is passed. *)
Fixpoint copy_full (buf : text) (room : nat) : option (text * nat) :=
  match room, buf with
  | _, [] => None
  | room, c :: r =>
      if Ascii.eqb c NUL then Some ([], room)
      else match room with
           | O => Some ([], O)
           | S room => match copy_full r room with Some (t, l) => Some (c :: t, l) | None => None end
           end
  end.

(** [GetFormatedStr] (builtins-c-common.hpp 135-165).  The result is kept as the list of
    the characters written: their number and [room] are 8195 together, so that
    the writes stay inside the result buffer.  One call of the loop body for each step of the
    fuel; [print_fuel] is enough. *)
Fixpoint formatted (fuel : nat) (garbage : text) (width : nat) (mask : Z) (format : text) (types : list Z)
  (args : list (list Z)) (room : nat) : option text :=
  match fuel with
  | O => None
  | S fuel =>
      let '(t, format, room) := copy_plain format room in
      match room, format with
      | O, _ => Some t
      | _, [] => Some t
      | _, c :: format =>
          if Ascii.eqb c NUL then Some t else
          match types, args with
          | ty :: types, a :: args =>
              match arg_to_str garbage width mask ty a with
              | Some buf =>
                  match copy_full buf room with
                  | Some (u, room) =>
                      match formatted fuel garbage width mask format types args room with
                      | Some w => Some (t ++ u ++ w)
                      | None => None
                      end
                  | None => None
                  end
              | None => None
              end
          | _, _ => None
          end
      end
  end.

Definition print_fuel (format : text) : nat := S (List.length format).

(** [__do_print] (builtins-c-cpu.cpp 141-160): what is written to stdout. *)
Definition do_print (garbage : text) (format : text) (types : list Z) (width : nat) (mask : Z) (args : list (list Z))
  : option text :=
  formatted (print_fuel format) garbage width mask format types args (RES_STR_SIZE - 1).

(** [PrintStmt::EmitCode] (src/stmt.cpp 4044-4125) for targets other than Xe, and a run of
    what it emits.  [Rejected]: the program is not accepted. *)
Inductive outcome : Type :=
| Rejected
| Undefined
| Printed (t : text).

Definition print_cpu (garbage : text) (width : nat) (mask : Z) (format : text) (args : list arg) : outcome :=
  if check_format format (List.length args) then
    match process_args args with
    | Some (types, vals) => match do_print garbage format types width mask vals with
                            | Some t => Printed t
                            | None => Undefined
                            end
    | None => Rejected
    end
  else Rejected.

(** * Xe targets *)

(** The arguments of printf. *)
Inductive parg : Type :=
| PStr (t : text)
| PNum (b : base) (bits : Z).

(** [__spirv_ocl_printf], a printf of OpenCL: conversions without flags.  None if an
    argument is missing or not of the type of its conversion. *)
Definition take_arg (b : base) (args : list parg) : option (text * list parg) :=
  match b, args with
  | TBool, PStr t :: r => Some (t, r)
  | TBool, _ => None
  | TFloat, PNum TFloat x :: r => Some (convert TFloat x, r)
  | TFloat, PNum TDouble x :: r => Some (convert TDouble x, r)
  | TInt, PNum TInt x :: r => Some (convert TInt x, r)
  | TUInt, PNum TUInt x :: r => Some (convert TUInt x, r)
  | TLong, PNum TLong x :: r => Some (convert TLong x, r)
  | TULong, PNum TULong x :: r => Some (convert TULong x, r)
  | TPtr, PNum TPtr x :: r => Some (convert TPtr x, r)
  | _, _ => None
  end.

Fixpoint printf (format : text) (args : list parg) : option text :=
  let conv b rest k :=
    match take_arg b args with
    | Some (t, args) => match k args with Some w => Some (t ++ w) | None => None end
    | None => None
    end in
  match format with
  | [] => Some []
  | "%"%char :: "s"%char :: r => conv TBool r (printf r)
  | "%"%char :: "d"%char :: r => conv TInt r (printf r)
  | "%"%char :: "u"%char :: r => conv TUInt r (printf r)
  | "%"%char :: "f"%char :: r => conv TFloat r (printf r)
  | "%"%char :: "p"%char :: r => conv TPtr r (printf r)
  | "%"%char :: "l"%char :: "l"%char :: "d"%char :: r => conv TLong r (printf r)
  | "%"%char :: "l"%char :: "l"%char :: "u"%char :: r => conv TULong r (printf r)
  | "%"%char :: _ => None
  | c :: r => match printf r args with Some w => Some (c :: w) | None => None end
  end.

(** The base type of an encoding ([isUniformEncoding], [getCorrespondingEncoding4Uniform],
    src/builtins-info.h 71-79, [switchEncoding]). *)
Definition base_of (c : Z) : option base :=
  match (if c <? 9 then c else c - 8) with
  | 1 => Some TBool | 2 => Some TInt | 3 => Some TUInt | 4 => Some TFloat
  | 5 => Some TLong | 6 => Some TULong | 7 => Some TDouble | 8 => Some TPtr
  | _ => None
  end.

(** [createSpecifier4Varying] (src/stmt.cpp 3882-3893). *)
Definition xe_specifier (width : nat) (c : Z) : text :=
  match base_of c with
  | None => []
  | Some b =>
      if c <? 9 then specifier b
      else str "[" ++ concat (repeat (str "%s" ++ specifier b ++ str "%s,") (width - 1)) ++
           str "%s" ++ specifier b ++ str "%s]"
  end.

(** [writeRawUniformArg], [writeRawVaryingArg] (src/stmt.cpp 3742-3787). *)
Definition raw_uniform (b : base) (v : Z) : parg :=
  match b with
  | TBool => PStr (if negb (v =? 0) then str "true" else str "false")
  | _ => PNum b v
  end.

Definition raw_arg (width : nat) (mask : Z) (c : Z) (vals : list Z) : list parg :=
  match base_of c with
  | None => []
  | Some b =>
      if c <? 9 then [raw_uniform b (nth 0 vals 0)]
      else flat_map (fun lane =>
             let on := Z.testbit mask (Z.of_nat lane) in
             [PStr (if on then [] else str "(("); raw_uniform b (nth lane vals 0); PStr (if on then [] else str "))")])
           (seq 0 width)
  end.

(** [PrintLZFormatStrBuilder::get] (src/stmt.cpp 3815-3836); None after an error. *)
Fixpoint xe_format (width : nat) (format : text) (types : list Z) : option text :=
  match format with
  | [] => match types with [] => Some [] | _ => None end
  | c :: r =>
      if is_percent c then
        match types with
        | [] => None
        | ty :: types => match xe_format width r types with
                         | Some w => Some (xe_specifier width ty ++ w)
                         | None => None
                         end
        end
      else match xe_format width r types with Some w => Some (c :: w) | None => None end
  end.

(** [splitValidFormat] (src/stmt.cpp 3921-3942): how many characters of the format and
    how many arguments are in the first slice. *)
Fixpoint split_valid (format : text) (weights : list nat) (sum limit : nat) : nat * nat :=
  match format with
  | [] => (O, O)
  | c :: r =>
      let use := is_percent c && match weights with [] => false | _ => true end in
      let sum' := if use then (sum + hd 0%nat weights)%nat else S sum in
      if (limit <? sum')%nat then (O, O)
      else let weights' := if use then tl weights else weights in
           let '(n, m) := split_valid r weights' sum' limit in
           (S n, if use then S m else m)
  end.

(** [getPrintSlices] (src/stmt.cpp 3944-3971): the slices, None if the assertion that
    progress is made fails. *)
Fixpoint slices (fuel : nat) (format : text) (weights : list nat) (args : list (Z * list Z)) (limit : nat)
  : option (list (text * list (Z * list Z))) :=
  match fuel with
  | O => None
  | S fuel =>
      match format with
      | [] => Some []
      | _ =>
          let '(n, m) := split_valid format weights 0 (limit - 1) in
          match n with
          | O => None
          | _ => match slices fuel (skipn n format) (skipn m weights) (skipn m args) limit with
                 | Some l => Some ((firstn n format, firstn m args) :: l)
                 | None => None
                 end
          end
      end
  end.

(** [emitCode4LZ] (src/stmt.cpp 3974-4027): one call of printf for every slice. *)
Definition xe_calls (limit width : nat) (mask : Z) (format : text) (args : list (Z * list Z))
  : option (list (text * list parg)) :=
  let weights := map (fun '(c, _) => List.length (xe_specifier width c)) args in
  match slices (S (List.length format)) format weights args limit with
  | None => None
  | Some l =>
      fold_right (fun '(f, a) acc =>
        match xe_format width f (map fst a), acc with
        | Some f, Some l => Some ((f, flat_map (fun '(c, v) => raw_arg width mask c v) a) :: l)
        | _, _ => None
        end) (Some []) l
  end.

Fixpoint run_calls (l : list (text * list parg)) : option text :=
  match l with
  | [] => Some []
  | (f, a) :: l => match printf f a, run_calls l with
                   | Some t, Some w => Some (t ++ w)
                   | _, _ => None
                   end
  end.

Definition LZMaxFormatStrSize : nat := 16 * 1024.

Definition print_xe (width : nat) (mask : Z) (format : text) (args : list arg) : outcome :=
  if check_format format (List.length args) then
    match process_args args with
    | Some (types, vals) =>
        match xe_calls LZMaxFormatStrSize width mask format (combine types vals) with
        | Some l => match run_calls l with Some t => Printed t | None => Undefined end
        | None => Undefined
        end
    | None => Rejected
    end
  else Rejected.

End Number.

(** * assert *)

(** A mask or varying boolean as the target keeps it: elements of [bits] bits. *)
Definition mask_vec := list Z.

(** [__movmsk] of the targets in LLVM: the sign bits (as the instruction movmsk does), and
    that of builtins/generic.ispc 1613-1620 with [llvm.ispc.packmask]
    (src/opt/LowerISPCIntrinsics.cpp 282-300): the lowest bits. *)
Fixpoint movmsk (bit : Z) (v : mask_vec) : Z :=
  match v with
  | [] => 0
  | x :: r => Z.b2z (Z.testbit x bit) + 2 * movmsk bit r
  end.

Definition vec2 (f : Z -> Z -> Z) (a b : mask_vec) : mask_vec := map (fun '(x, y) => f x y) (combine a b).

Inductive fate : Type :=
| Continues
| Stops (message : text).

(** [__do_assert_varying] (builtins/util.m4 5532-5549). *)
Definition do_assert_varying (bits : Z) (s : text) (test mask : mask_vec) : fate :=
  let nottest := map (fun x => Z.lxor x (Z.ones bits)) test in
  if movmsk (bits - 1) (vec2 Z.land nottest mask) =? 0 then Continues else Stops s.

(** [__do_assert_varying] (builtins/generic.ispc 595-600). *)
Definition do_assert_varying_generic (s : text) (test mask : mask_vec) : fate :=
  if negb (movmsk 0 (vec2 Z.land (map (fun x => Z.lxor x 1) test) mask) =? 0) then Stops s else Continues.

(** [__do_assert_uniform] (builtins/util.m4 5519-5529, builtins/generic.ispc 589-594). *)
Definition do_assert_uniform (s : text) (test : bool) : fate := if test then Continues else Stops s.

(** On Xe targets (builtins/util-xe.m4 4133-4162) the message is the format of a call of
    printf without arguments.  None: undefined. *)
Definition xe_message (f : fate) : option fate :=
  match f with
  | Continues => Some Continues
  | Stops s => match printf (fun _ _ => []) s [] with Some t => Some (Stops t) | None => None end
  end.
