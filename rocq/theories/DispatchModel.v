(** Choosing the variant of an exported function at run time: src/isa.h, builtins/dispatch.c, and the
    dispatch function emitted by lCreateDispatchFunction, src/module.cpp 1985-2183. *)
From Coq Require Import ZArith List Bool.
Import ListNotations.
Open Scope Z_scope.

(** enum ISA, isa.h 10-29 *)
Inductive isa := INVALID | SSE2 | SSE41 | SSE42 | AVX | AVX11 | AVX2 | AVX2VNNI | KNL_AVX512 | SKX_AVX512 | ICL_AVX512
  | SPR_AVX512 | GNR_AVX512 | NVL_AVX10_2 | DMR_AVX10_2.
Definition num (i : isa) : Z :=
  match i with
  | INVALID => -1 | SSE2 => 0 | SSE41 => 1 | SSE42 => 2 | AVX => 3 | AVX11 => 4 | AVX2 => 5 | AVX2VNNI => 6 | KNL_AVX512 => 7
  | SKX_AVX512 => 8 | ICL_AVX512 => 9 | SPR_AVX512 => 10 | GNR_AVX512 => 11 | NVL_AVX10_2 => 12 | DMR_AVX10_2 => 13
  end.
Definition isa_eqb (a b : isa) : bool := num a =? num b.

(** What a cpuid instruction leaves in the registers, and the machine: cpuid leaf 1, leaf 7 subleaves 0
    and 1, leaf 0x24, and extended control register 0. *)
Record regs := { eax : Z; ebx : Z; ecx : Z; edx : Z }.
Record host := { leaf1 : regs; leaf7 : regs; leaf7_1 : regs; leaf24 : regs; xcr0 : Z }.
Definition no_regs : regs := {| eax := 0; ebx := 0; ecx := 0; edx := 0 |}.

(** [info & (1 << n)] *)
Definition bit (r n : Z) : bool := Z.testbit r n.

(** isa.h 84: __os_has_avx_support; 87: __os_has_amx_support; 89-106: __os_has_avx512_support.
    Leaf 1 says whether xgetbv exists (osxsave); __os_has_amx_support does not look at it. *)
Definition os_avx (h : host) : bool := Z.land (xcr0 h) 6 =? 6.
Definition os_amx (h : host) : bool := Z.land (xcr0 h) 393216 =? 393216. (* 0x60000 *)
Definition os_avx512 (macos : bool) (h : host) : bool := if macos then true else Z.land (xcr0 h) 230 =? 230. (* 0xE6 *)

(** get_x86_isa, isa.h 110-263; [macos]: compiled with MACOS *)
Definition get_x86_isa (macos : bool) (h : host) : isa :=
  let info := leaf1 h in
  let max_level := eax info in
  let info2 := leaf7 h in
  let max_subleaf := eax info2 in
  let info3 := if 1 <=? max_subleaf then leaf7_1 h else no_regs in
  let sse2 := bit (edx info) 26 in
  let sse41 := bit (ecx info) 19 in
  let sse42 := bit (ecx info) 20 in
  let avx := bit (ecx info) 28 in
  let avx2 := bit (ebx info2) 5 in
  let avx_vnni := bit (eax info3) 4 in
  let avx_f16c := bit (ecx info) 29 in
  let avx_rdrand := bit (ecx info) 30 in
  let osxsave := bit (ecx info) 27 in
  let avx512_f := bit (ebx info2) 16 in
  let sha512 := bit (eax info3) 0 in
  let sm3 := bit (eax info3) 1 in
  let sm4 := bit (eax info3) 2 in
  let cmpccxadd := bit (eax info3) 7 in
  let amxfp16 := bit (eax info3) 21 in
  let avxifma := bit (eax info3) 23 in
  let avxvnniint8 := bit (edx info3) 4 in
  let avxneconvert := bit (edx info3) 5 in
  let amxcomplex := bit (edx info3) 8 in
  let avxvnniint16 := bit (edx info3) 10 in
  let prefetchi := bit (edx info3) 14 in
  let apx := bit (edx info3) 21 in
  let below :=                              (* 242-262 *)
    if osxsave && avx && os_avx h then
      if avx_vnni then AVX2VNNI
      else if avx_f16c && avx_rdrand then (if avx2 then AVX2 else AVX11)
      else AVX
    else if sse42 then SSE42 else if sse41 then SSE41 else if sse2 then SSE2 else INVALID in
  if osxsave && avx2 && avx512_f && os_avx512 macos h then
    let avx512_dq := bit (ebx info2) 17 in
    let avx512_pf := bit (ebx info2) 26 in
    let avx512_er := bit (ebx info2) 27 in
    let avx512_cd := bit (ebx info2) 28 in
    let avx512_bw := bit (ebx info2) 30 in
    let avx512_vl := bit (ebx info2) 31 in
    let avx512_vbmi2 := bit (ecx info2) 6 in
    let avx512_gfni := bit (ecx info2) 8 in
    let avx512_vaes := bit (ecx info2) 9 in
    let avx512_vpclmulqdq := bit (ecx info2) 10 in
    let avx512_vnni := bit (ecx info2) 11 in
    let avx512_bitalg := bit (ecx info2) 12 in
    let avx512_vpopcntdq := bit (ecx info2) 14 in
    let avx512_bf16 := bit (eax info3) 5 in
    let avx512_amx_bf16 := bit (edx info2) 22 in
    let avx512_amx_tile := bit (edx info2) 24 in
    let avx512_amx_int8 := bit (edx info2) 25 in
    let avx512_fp16 := bit (edx info2) 23 in
    let knl := avx512_pf && avx512_er && avx512_cd in
    let skx := avx512_dq && avx512_cd && avx512_bw && avx512_vl in
    let rest := if skx then SKX_AVX512 else if knl then KNL_AVX512 else below in
    if macos then rest
    else
      let clx := skx && avx512_vnni in
      let icl := clx && avx512_vbmi2 && avx512_gfni && avx512_vaes && avx512_vpclmulqdq && avx512_bitalg && avx512_vpopcntdq in
      let spr := icl && avx512_bf16 && avx512_amx_bf16 && avx512_amx_tile && avx512_amx_int8 && avx_vnni && avx512_fp16 in
      let gnr := spr && amxfp16 && prefetchi in
      let arl := icl && avxvnniint8 && avxvnniint16 && avxneconvert && sha512 && sm3 && sm4 && avxifma && cmpccxadd in
      let avx10 := bit (edx info3) 19 in
      let info_avx10 := if 24 <=? max_level then leaf24 h else no_regs in
      let avx10_ver := Z.land (ebx info_avx10) 255 in
      let avx10_2 := 2 <=? avx10_ver in
      let dmr := gnr && avx10_2 && apx && cmpccxadd && avxneconvert && avxifma && avxvnniint8 && avxvnniint16 && amxcomplex
                 && sha512 && sm3 && sm4 in
      let nvl := arl && avx10_2 && apx && avx512_fp16 in
      if avx10 && dmr then DMR_AVX10_2
      else if avx10 && nvl then NVL_AVX10_2
      else if gnr then GNR_AVX512
      else if spr then SPR_AVX512
      else if icl then ICL_AVX512
      else rest
  else below.

(** get_x86_has_amx, 293-305 *)
Definition get_x86_has_amx (macos : bool) (h : host) : bool :=
  if macos then false
  else
    let amx_bf16 := bit (edx (leaf7 h)) 22 in
    let amx_tile := bit (edx (leaf7 h)) 24 in
    let amx_int8 := bit (edx (leaf7 h)) 25 in
    amx_tile && amx_int8 && amx_bf16 && os_amx h.

(** dispatch.c 52-65: __get_system_isa; None: the ud2 instruction *)
Definition get_system_isa (macos : bool) (h : host) : option isa :=
  match get_x86_isa macos h with
  | INVALID | KNL_AVX512 => None
  | AVX11 => Some AVX
  | i => Some i
  end.

(** module.cpp 1987-1989 *)
Definition requires_amx (i : isa) : bool := match i with SPR_AVX512 | GNR_AVX512 | DMR_AVX10_2 => true | _ => false end.
(** 2003-2013 *)
Definition compatible (candidate system : isa) (amx : bool) : bool :=
  (num candidate <=? num system) && (if requires_amx candidate then amx else true).

(** 2144-2170: from the last to the first enumerator.  [has i]: the function was compiled for i. *)
Definition downward : list isa :=
  [DMR_AVX10_2; NVL_AVX10_2; GNR_AVX512; SPR_AVX512; ICL_AVX512; SKX_AVX512; KNL_AVX512; AVX2VNNI; AVX2; AVX11; AVX; SSE42; SSE41; SSE2].
Definition choose (has : isa -> bool) (system : isa) (amx : bool) : option isa :=
  find (fun i => has i && compatible i system amx) downward.

(** What the dispatch function of a program does the first time: the variant it calls; None: terminated. *)
Definition dispatch (macos : bool) (h : host) (has : isa -> bool) : option isa :=
  match get_system_isa macos h with
  | Some s => choose has s (get_x86_has_amx macos h)
  | None => None
  end.

(** ** Calls from several threads *)

(** The cached pointer (2087-2112) and __system_best_isa (dispatch.c 32, 67-76), shared by all threads.
    -1 is None.  The threads are numbered. *)
Inductive pc :=
  | Enter            (* load the pointer, 2093-2102 *)
  | Reload           (* block skip_init: load it again, 2105-2107 *)
  | LoadIsa          (* block do_init: load __system_best_isa *)
  | StoreIsa         (* it was -1: find out and store it *)
  | StorePtr (i : isa)   (* block do_call, 2162-2166: the variant chosen; then skip_init *)
  | Called (f : option isa)   (* the call through the pointer; None: through a null pointer *)
  | Terminated.      (* ud2 *)

Record state := { ptr : option isa; best : option isa; stored : nat -> bool; at_ : nat -> pc }.
Definition upd {A} (f : nat -> A) (t : nat) (x : A) : nat -> A := fun t' => if Nat.eqb t t' then x else f t'.

(** [coherent]: a load returns the last value stored.  Otherwise it follows the ordering given to the
    loads, "unordered": it may return the initial value as long as this thread has not stored itself. *)
Definition loads (coherent : bool) (s : state) (t : nat) (v : option isa) : Prop :=
  v = ptr s \/ (coherent = false /\ stored s t = false /\ v = None).

Inductive step (coherent macos : bool) (h : host) (has : isa -> bool) (s : state) : state -> Prop :=
  | SEnter t v : at_ s t = Enter -> loads coherent s t v ->
      step coherent macos h has s {| ptr := ptr s; best := best s; stored := stored s;
        at_ := upd (at_ s) t (match v with Some _ => Reload | None => LoadIsa end) |}
  | SReload t v : at_ s t = Reload -> loads coherent s t v ->
      step coherent macos h has s {| ptr := ptr s; best := best s; stored := stored s; at_ := upd (at_ s) t (Called v) |}
  | SLoadIsa t : at_ s t = LoadIsa ->
      step coherent macos h has s {| ptr := ptr s; best := best s; stored := stored s;
        at_ := upd (at_ s) t (match best s with
                              | None => StoreIsa
                              | Some i => match choose has i (get_x86_has_amx macos h) with Some c => StorePtr c | None => Terminated end
                              end) |}
  | SStoreIsa t : at_ s t = StoreIsa ->
      step coherent macos h has s
        match get_system_isa macos h with
        | None => {| ptr := ptr s; best := best s; stored := stored s; at_ := upd (at_ s) t Terminated |}
        | Some i => {| ptr := ptr s; best := Some i; stored := stored s;
                       at_ := upd (at_ s) t (match choose has i (get_x86_has_amx macos h) with Some c => StorePtr c | None => Terminated end) |}
        end
  | SStorePtr t c : at_ s t = StorePtr c ->
      step coherent macos h has s {| ptr := Some c; best := best s; stored := upd (stored s) t true; at_ := upd (at_ s) t Reload |}
  | SAgain t f : at_ s t = Called (Some f) ->     (* the next call *)
      step coherent macos h has s {| ptr := ptr s; best := best s; stored := stored s; at_ := upd (at_ s) t Enter |}.

Inductive reachable (coherent macos : bool) (h : host) (has : isa -> bool) : state -> Prop :=
  | RInit : reachable coherent macos h has {| ptr := None; best := None; stored := fun _ => false; at_ := fun _ => Enter |}
  | RStep s s' : reachable coherent macos h has s -> step coherent macos h has s s' -> reachable coherent macos h has s'.

(** lCheckAndFillISAIndices, module.cpp 2618-2653, on the ISAs of the targets in order: an error, or the
    ISA for which the dispatch functions themselves are compiled. *)
Fixpoint fill (seen : list isa) (ts : list isa) : option (list isa) :=
  match ts with
  | [] => Some seen
  | i :: ts =>
      if existsb (isa_eqb i) seen then None
      else if (isa_eqb i SSE42 && existsb (isa_eqb SSE41) seen) || (isa_eqb i SSE41 && existsb (isa_eqb SSE42) seen) then None
      else fill (i :: seen) ts
  end.
Definition common_isa (ts : list isa) : option isa :=
  match fill [] ts with
  | None => None
  | Some seen => find (fun i => existsb (isa_eqb i) seen) (rev downward)
  end.
