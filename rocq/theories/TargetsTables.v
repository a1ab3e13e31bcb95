(** Tables over the targets.  Written by tools/gen_targets.py from /repo/src/target_enums.h, target_enums.cpp, ispc.cpp and builtins.cpp. *)
From Coq Require Import ZArith List Bool String.
From Verif Require Import DispatchModel.
Import ListNotations.
Open Scope string_scope.
Open Scope Z_scope.

(** enum class ISPCTarget, target_enums.h 35-133. *)
Inductive target :=
  | T_none
  | T_host
  | T_sse2_i32x4
  | T_sse2_i32x8
  | T_sse41_i8x16
  | T_sse41_i16x8
  | T_sse41_i32x4
  | T_sse41_i32x8
  | T_sse4_i8x16
  | T_sse4_i16x8
  | T_sse4_i32x4
  | T_sse4_i32x8
  | T_avx1_i32x4
  | T_avx1_i32x8
  | T_avx1_i32x16
  | T_avx1_i64x4
  | T_avx2_i8x32
  | T_avx2_i16x16
  | T_avx2_i32x4
  | T_avx2_i32x8
  | T_avx2_i32x16
  | T_avx2_i64x4
  | T_avx2vnni_i32x4
  | T_avx2vnni_i32x8
  | T_avx2vnni_i32x16
  | T_avx512skx_x4
  | T_avx512skx_x8
  | T_avx512skx_x16
  | T_avx512skx_x16_nozmm
  | T_avx512skx_x32
  | T_avx512skx_x64
  | T_avx512icl_x4
  | T_avx512icl_x8
  | T_avx512icl_x16
  | T_avx512icl_x16_nozmm
  | T_avx512icl_x32
  | T_avx512icl_x64
  | T_avx512spr_x4
  | T_avx512spr_x8
  | T_avx512spr_x16
  | T_avx512spr_x32
  | T_avx512spr_x64
  | T_avx512gnr_x4
  | T_avx512gnr_x8
  | T_avx512gnr_x16
  | T_avx512gnr_x32
  | T_avx512gnr_x64
  | T_avx10_2dmr_x4
  | T_avx10_2dmr_x8
  | T_avx10_2dmr_x16
  | T_avx10_2dmr_x32
  | T_avx10_2dmr_x64
  | T_avx10_2nvl_x4
  | T_avx10_2nvl_x8
  | T_avx10_2nvl_x16
  | T_avx10_2nvl_x32
  | T_avx10_2nvl_x64
  | T_neon_i8x16
  | T_neon_i8x32
  | T_neon_i16x8
  | T_neon_i16x16
  | T_neon_i32x4
  | T_neon_i32x8
  | T_vsx_i8x16
  | T_vsx_i8x32
  | T_vsx_i16x8
  | T_vsx_i16x16
  | T_vsx_i32x4
  | T_vsx_i32x8
  | T_rvv_x4
  | T_wasm_i32x4
  | T_xelp_x8
  | T_xelp_x16
  | T_xehpg_x8
  | T_xehpg_x16
  | T_xehpc_x16
  | T_xehpc_x32
  | T_xelpg_x8
  | T_xelpg_x16
  | T_xe2hpg_x16
  | T_xe2hpg_x32
  | T_xe2lpg_x16
  | T_xe2lpg_x32
  | T_generic_i1x4
  | T_generic_i1x8
  | T_generic_i1x16
  | T_generic_i1x32
  | T_generic_i1x64
  | T_generic_i8x16
  | T_generic_i8x32
  | T_generic_i16x8
  | T_generic_i16x16
  | T_generic_i32x4
  | T_generic_i32x8
  | T_generic_i32x16
  | T_generic_i64x4
  | T_error
.
Definition all_targets : list target := [T_none; T_host; T_sse2_i32x4; T_sse2_i32x8; T_sse41_i8x16; T_sse41_i16x8; T_sse41_i32x4; T_sse41_i32x8; T_sse4_i8x16; T_sse4_i16x8; T_sse4_i32x4; T_sse4_i32x8; T_avx1_i32x4; T_avx1_i32x8; T_avx1_i32x16; T_avx1_i64x4; T_avx2_i8x32; T_avx2_i16x16; T_avx2_i32x4; T_avx2_i32x8; T_avx2_i32x16; T_avx2_i64x4; T_avx2vnni_i32x4; T_avx2vnni_i32x8; T_avx2vnni_i32x16; T_avx512skx_x4; T_avx512skx_x8; T_avx512skx_x16; T_avx512skx_x16_nozmm; T_avx512skx_x32; T_avx512skx_x64; T_avx512icl_x4; T_avx512icl_x8; T_avx512icl_x16; T_avx512icl_x16_nozmm; T_avx512icl_x32; T_avx512icl_x64; T_avx512spr_x4; T_avx512spr_x8; T_avx512spr_x16; T_avx512spr_x32; T_avx512spr_x64; T_avx512gnr_x4; T_avx512gnr_x8; T_avx512gnr_x16; T_avx512gnr_x32; T_avx512gnr_x64; T_avx10_2dmr_x4; T_avx10_2dmr_x8; T_avx10_2dmr_x16; T_avx10_2dmr_x32; T_avx10_2dmr_x64; T_avx10_2nvl_x4; T_avx10_2nvl_x8; T_avx10_2nvl_x16; T_avx10_2nvl_x32; T_avx10_2nvl_x64; T_neon_i8x16; T_neon_i8x32; T_neon_i16x8; T_neon_i16x16; T_neon_i32x4; T_neon_i32x8; T_vsx_i8x16; T_vsx_i8x32; T_vsx_i16x8; T_vsx_i16x16; T_vsx_i32x4; T_vsx_i32x8; T_rvv_x4; T_wasm_i32x4; T_xelp_x8; T_xelp_x16; T_xehpg_x8; T_xehpg_x16; T_xehpc_x16; T_xehpc_x32; T_xelpg_x8; T_xelpg_x16; T_xe2hpg_x16; T_xe2hpg_x32; T_xe2lpg_x16; T_xe2lpg_x32; T_generic_i1x4; T_generic_i1x8; T_generic_i1x16; T_generic_i1x32; T_generic_i1x64; T_generic_i8x16; T_generic_i8x32; T_generic_i16x8; T_generic_i16x16; T_generic_i32x4; T_generic_i32x8; T_generic_i32x16; T_generic_i64x4; T_error].

(** ParseISPCTarget, target_enums.cpp 398-598: the comparisons in order; the flag marks those compiled only with LLVM 22 and later. *)
Definition parse_table : list (string * bool * target) :=
  [
   ("host", false, T_host);
   ("sse2-i32x4", false, T_sse2_i32x4);
   ("sse2", false, T_sse2_i32x4);
   ("sse2-i32x8", false, T_sse2_i32x8);
   ("sse2-x2", false, T_sse2_i32x8);
   ("sse4-i8x16", false, T_sse4_i8x16);
   ("sse4.2-i8x16", false, T_sse4_i8x16);
   ("sse4-i16x8", false, T_sse4_i16x8);
   ("sse4.2-i16x8", false, T_sse4_i16x8);
   ("sse4-i32x4", false, T_sse4_i32x4);
   ("sse4", false, T_sse4_i32x4);
   ("sse4.2-i32x4", false, T_sse4_i32x4);
   ("sse4-i32x8", false, T_sse4_i32x8);
   ("sse4-x2", false, T_sse4_i32x8);
   ("sse4x2", false, T_sse4_i32x8);
   ("sse4.2-i32x8", false, T_sse4_i32x8);
   ("sse4.1-i8x16", false, T_sse41_i8x16);
   ("sse4.1-i16x8", false, T_sse41_i16x8);
   ("sse4.1-i32x4", false, T_sse41_i32x4);
   ("sse4.1-i32x8", false, T_sse41_i32x8);
   ("avx1-i32x4", false, T_avx1_i32x4);
   ("avx1-i32x8", false, T_avx1_i32x8);
   ("avx", false, T_avx1_i32x8);
   ("avx1", false, T_avx1_i32x8);
   ("avx1-i64x4", false, T_avx1_i64x4);
   ("avx-i64x4", false, T_avx1_i64x4);
   ("avx1-i32x16", false, T_avx1_i32x16);
   ("avx-x2", false, T_avx1_i32x16);
   ("avx1-x2", false, T_avx1_i32x16);
   ("avx2-i8x32", false, T_avx2_i8x32);
   ("avx2-i16x16", false, T_avx2_i16x16);
   ("avx2-i32x4", false, T_avx2_i32x4);
   ("avx2-i32x8", false, T_avx2_i32x8);
   ("avx2", false, T_avx2_i32x8);
   ("avx2-i64x4", false, T_avx2_i64x4);
   ("avx2-i32x16", false, T_avx2_i32x16);
   ("avx2-x2", false, T_avx2_i32x16);
   ("avx2vnni-i32x4", false, T_avx2vnni_i32x4);
   ("avx2vnni-i32x8", false, T_avx2vnni_i32x8);
   ("avx2vnni-i32x16", false, T_avx2vnni_i32x16);
   ("avx512skx-x4", false, T_avx512skx_x4);
   ("avx512skx-i32x4", false, T_avx512skx_x4);
   ("avx512skx-x8", false, T_avx512skx_x8);
   ("avx512skx-i32x8", false, T_avx512skx_x8);
   ("avx512skx-x16", false, T_avx512skx_x16);
   ("avx512skx-i32x16", false, T_avx512skx_x16);
   ("avx512skx-x16-nozmm", false, T_avx512skx_x16_nozmm);
   ("avx512skx-x32", false, T_avx512skx_x32);
   ("avx512skx-i16x32", false, T_avx512skx_x32);
   ("avx512skx-x64", false, T_avx512skx_x64);
   ("avx512skx-i8x64", false, T_avx512skx_x64);
   ("avx512icl-x4", false, T_avx512icl_x4);
   ("avx512icl-x8", false, T_avx512icl_x8);
   ("avx512icl-x16", false, T_avx512icl_x16);
   ("avx512icl-x16-nozmm", false, T_avx512icl_x16_nozmm);
   ("avx512icl-x32", false, T_avx512icl_x32);
   ("avx512icl-x64", false, T_avx512icl_x64);
   ("avx512spr-x4", false, T_avx512spr_x4);
   ("avx512spr-x8", false, T_avx512spr_x8);
   ("avx512spr-x16", false, T_avx512spr_x16);
   ("avx512spr-x32", false, T_avx512spr_x32);
   ("avx512spr-x64", false, T_avx512spr_x64);
   ("avx512gnr-x4", false, T_avx512gnr_x4);
   ("avx512gnr-x8", false, T_avx512gnr_x8);
   ("avx512gnr-x16", false, T_avx512gnr_x16);
   ("avx512gnr-x32", false, T_avx512gnr_x32);
   ("avx512gnr-x64", false, T_avx512gnr_x64);
   ("avx10.2dmr-x4", false, T_avx10_2dmr_x4);
   ("avx10.2dmr-x8", false, T_avx10_2dmr_x8);
   ("avx10.2dmr-x16", false, T_avx10_2dmr_x16);
   ("avx10.2dmr-x32", false, T_avx10_2dmr_x32);
   ("avx10.2dmr-x64", false, T_avx10_2dmr_x64);
   ("avx10.2nvl-x4", true, T_avx10_2nvl_x4);
   ("avx10.2nvl-x8", true, T_avx10_2nvl_x8);
   ("avx10.2nvl-x16", true, T_avx10_2nvl_x16);
   ("avx10.2nvl-x32", true, T_avx10_2nvl_x32);
   ("avx10.2nvl-x64", true, T_avx10_2nvl_x64);
   ("neon-i8x16", false, T_neon_i8x16);
   ("neon-i8x32", false, T_neon_i8x32);
   ("neon-i16x8", false, T_neon_i16x8);
   ("neon-i16x16", false, T_neon_i16x16);
   ("neon-i32x4", false, T_neon_i32x4);
   ("neon", false, T_neon_i32x4);
   ("neon-i32x8", false, T_neon_i32x8);
   ("vsx-i8x16", false, T_vsx_i8x16);
   ("vsx-i8x32", false, T_vsx_i8x32);
   ("vsx-i16x8", false, T_vsx_i16x8);
   ("vsx-i16x16", false, T_vsx_i16x16);
   ("vsx-i32x4", false, T_vsx_i32x4);
   ("vsx", false, T_vsx_i32x4);
   ("vsx-i32x8", false, T_vsx_i32x8);
   ("rvv-x4", false, T_rvv_x4);
   ("wasm-i32x4", false, T_wasm_i32x4);
   ("xelp-x8", false, T_xelp_x8);
   ("xelp-x16", false, T_xelp_x16);
   ("xelp", false, T_xelp_x16);
   ("xehpg-x8", false, T_xehpg_x8);
   ("xehpg-x16", false, T_xehpg_x16);
   ("xehpc-x16", false, T_xehpc_x16);
   ("xehpc-x32", false, T_xehpc_x32);
   ("xelpg-x8", false, T_xelpg_x8);
   ("xelpg-x16", false, T_xelpg_x16);
   ("xe2hpg-x16", false, T_xe2hpg_x16);
   ("xe2hpg-x32", false, T_xe2hpg_x32);
   ("xe2lpg-x16", false, T_xe2lpg_x16);
   ("xe2lpg-x32", false, T_xe2lpg_x32);
   ("generic-i1x4", false, T_generic_i1x4);
   ("generic-i1x8", false, T_generic_i1x8);
   ("generic-i1x16", false, T_generic_i1x16);
   ("generic-i1x32", false, T_generic_i1x32);
   ("generic-i1x64", false, T_generic_i1x64);
   ("generic-i8x16", false, T_generic_i8x16);
   ("generic-i8x32", false, T_generic_i8x32);
   ("generic-i16x8", false, T_generic_i16x8);
   ("generic-i16x16", false, T_generic_i16x16);
   ("generic-i32x4", false, T_generic_i32x4);
   ("generic-i32x8", false, T_generic_i32x8);
   ("generic-i32x16", false, T_generic_i32x16);
   ("generic-i64x4", false, T_generic_i64x4)].

(** ISPCTargetToString, target_enums.cpp 630-828; None: error exit. *)
Definition to_string (t : target) : option string :=
  match t with
  | T_host => Some "host"
  | T_sse2_i32x4 => Some "sse2-i32x4"
  | T_sse2_i32x8 => Some "sse2-i32x8"
  | T_sse41_i8x16 => Some "sse4.1-i8x16"
  | T_sse41_i16x8 => Some "sse4.1-i16x8"
  | T_sse41_i32x4 => Some "sse4.1-i32x4"
  | T_sse41_i32x8 => Some "sse4.1-i32x8"
  | T_sse4_i8x16 => Some "sse4.2-i8x16"
  | T_sse4_i16x8 => Some "sse4.2-i16x8"
  | T_sse4_i32x4 => Some "sse4.2-i32x4"
  | T_sse4_i32x8 => Some "sse4.2-i32x8"
  | T_avx1_i32x4 => Some "avx1-i32x4"
  | T_avx1_i32x8 => Some "avx1-i32x8"
  | T_avx1_i32x16 => Some "avx1-i32x16"
  | T_avx1_i64x4 => Some "avx1-i64x4"
  | T_avx2_i8x32 => Some "avx2-i8x32"
  | T_avx2_i16x16 => Some "avx2-i16x16"
  | T_avx2_i32x4 => Some "avx2-i32x4"
  | T_avx2_i32x8 => Some "avx2-i32x8"
  | T_avx2_i32x16 => Some "avx2-i32x16"
  | T_avx2_i64x4 => Some "avx2-i64x4"
  | T_avx2vnni_i32x4 => Some "avx2vnni-i32x4"
  | T_avx2vnni_i32x8 => Some "avx2vnni-i32x8"
  | T_avx2vnni_i32x16 => Some "avx2vnni-i32x16"
  | T_avx512skx_x4 => Some "avx512skx-x4"
  | T_avx512skx_x8 => Some "avx512skx-x8"
  | T_avx512skx_x16 | T_avx512skx_x16_nozmm => Some "avx512skx-x16"
  | T_avx512skx_x32 => Some "avx512skx-x32"
  | T_avx512skx_x64 => Some "avx512skx-x64"
  | T_avx512icl_x4 => Some "avx512icl-x4"
  | T_avx512icl_x8 => Some "avx512icl-x8"
  | T_avx512icl_x16 | T_avx512icl_x16_nozmm => Some "avx512icl-x16"
  | T_avx512icl_x32 => Some "avx512icl-x32"
  | T_avx512icl_x64 => Some "avx512icl-x64"
  | T_avx512spr_x4 => Some "avx512spr-x4"
  | T_avx512spr_x8 => Some "avx512spr-x8"
  | T_avx512spr_x16 => Some "avx512spr-x16"
  | T_avx512spr_x32 => Some "avx512spr-x32"
  | T_avx512spr_x64 => Some "avx512spr-x64"
  | T_avx512gnr_x4 => Some "avx512gnr-x4"
  | T_avx512gnr_x8 => Some "avx512gnr-x8"
  | T_avx512gnr_x16 => Some "avx512gnr-x16"
  | T_avx512gnr_x32 => Some "avx512gnr-x32"
  | T_avx512gnr_x64 => Some "avx512gnr-x64"
  | T_avx10_2dmr_x4 => Some "avx10.2dmr-x4"
  | T_avx10_2dmr_x8 => Some "avx10.2dmr-x8"
  | T_avx10_2dmr_x16 => Some "avx10.2dmr-x16"
  | T_avx10_2dmr_x32 => Some "avx10.2dmr-x32"
  | T_avx10_2dmr_x64 => Some "avx10.2dmr-x64"
  | T_avx10_2nvl_x4 => Some "avx10.2nvl-x4"
  | T_avx10_2nvl_x8 => Some "avx10.2nvl-x8"
  | T_avx10_2nvl_x16 => Some "avx10.2nvl-x16"
  | T_avx10_2nvl_x32 => Some "avx10.2nvl-x32"
  | T_avx10_2nvl_x64 => Some "avx10.2nvl-x64"
  | T_neon_i8x16 => Some "neon-i8x16"
  | T_neon_i8x32 => Some "neon-i8x32"
  | T_neon_i16x8 => Some "neon-i16x8"
  | T_neon_i16x16 => Some "neon-i16x16"
  | T_neon_i32x4 => Some "neon-i32x4"
  | T_neon_i32x8 => Some "neon-i32x8"
  | T_vsx_i8x16 => Some "vsx-i8x16"
  | T_vsx_i8x32 => Some "vsx-i8x32"
  | T_vsx_i16x8 => Some "vsx-i16x8"
  | T_vsx_i16x16 => Some "vsx-i16x16"
  | T_vsx_i32x4 => Some "vsx-i32x4"
  | T_vsx_i32x8 => Some "vsx-i32x8"
  | T_rvv_x4 => Some "rvv-x4"
  | T_wasm_i32x4 => Some "wasm-i32x4"
  | T_xelp_x8 => Some "xelp-x8"
  | T_xelp_x16 => Some "xelp-x16"
  | T_xehpg_x8 => Some "xehpg-x8"
  | T_xehpg_x16 => Some "xehpg-x16"
  | T_xehpc_x16 => Some "xehpc-x16"
  | T_xehpc_x32 => Some "xehpc-x32"
  | T_xelpg_x8 => Some "xelpg-x8"
  | T_xelpg_x16 => Some "xelpg-x16"
  | T_xe2hpg_x16 => Some "xe2hpg-x16"
  | T_xe2hpg_x32 => Some "xe2hpg-x32"
  | T_xe2lpg_x16 => Some "xe2lpg-x16"
  | T_xe2lpg_x32 => Some "xe2lpg-x32"
  | T_generic_i1x4 => Some "generic-i1x4"
  | T_generic_i1x8 => Some "generic-i1x8"
  | T_generic_i1x16 => Some "generic-i1x16"
  | T_generic_i1x32 => Some "generic-i1x32"
  | T_generic_i1x64 => Some "generic-i1x64"
  | T_generic_i8x16 => Some "generic-i8x16"
  | T_generic_i8x32 => Some "generic-i8x32"
  | T_generic_i16x8 => Some "generic-i16x8"
  | T_generic_i16x16 => Some "generic-i16x16"
  | T_generic_i32x4 => Some "generic-i32x4"
  | T_generic_i32x8 => Some "generic-i32x8"
  | T_generic_i32x16 => Some "generic-i32x16"
  | T_generic_i64x4 => Some "generic-i64x4"
  | T_none => Some "none"
  | T_error => None
  end.

(** ISPCTargetIsX86, target_enums.cpp 830-891. *)
Definition is_x86 (t : target) : bool :=
  match t with
  | T_sse2_i32x4 | T_sse2_i32x8 | T_sse41_i8x16 | T_sse41_i16x8 | T_sse41_i32x4 | T_sse41_i32x8 | T_sse4_i8x16 | T_sse4_i16x8 | T_sse4_i32x4 | T_sse4_i32x8 | T_avx1_i32x4 | T_avx1_i32x8 | T_avx1_i32x16 | T_avx1_i64x4 | T_avx2_i8x32 | T_avx2_i16x16 | T_avx2_i32x4 | T_avx2_i32x8 | T_avx2_i32x16 | T_avx2_i64x4 | T_avx2vnni_i32x4 | T_avx2vnni_i32x8 | T_avx2vnni_i32x16 | T_avx512skx_x4 | T_avx512skx_x8 | T_avx512skx_x16 | T_avx512skx_x16_nozmm | T_avx512skx_x32 | T_avx512skx_x64 | T_avx512icl_x4 | T_avx512icl_x8 | T_avx512icl_x16 | T_avx512icl_x16_nozmm | T_avx512icl_x32 | T_avx512icl_x64 | T_avx512spr_x4 | T_avx512spr_x8 | T_avx512spr_x16 | T_avx512spr_x32 | T_avx512spr_x64 | T_avx512gnr_x4 | T_avx512gnr_x8 | T_avx512gnr_x16 | T_avx512gnr_x32 | T_avx512gnr_x64 | T_avx10_2dmr_x4 | T_avx10_2dmr_x8 | T_avx10_2dmr_x16 | T_avx10_2dmr_x32 | T_avx10_2dmr_x64 | T_avx10_2nvl_x4 | T_avx10_2nvl_x8 | T_avx10_2nvl_x16 | T_avx10_2nvl_x32 | T_avx10_2nvl_x64 => true
  | _ => false
  end.

(** ISPCTargetIsApxCapable, target_enums.cpp 898-914. *)
Definition is_apx_capable (t : target) : bool :=
  match t with
  | T_avx10_2dmr_x4 | T_avx10_2dmr_x8 | T_avx10_2dmr_x16 | T_avx10_2dmr_x32 | T_avx10_2dmr_x64 | T_avx10_2nvl_x4 | T_avx10_2nvl_x8 | T_avx10_2nvl_x16 | T_avx10_2nvl_x32 | T_avx10_2nvl_x64 => true
  | _ => false
  end.

(** ISPCTargetIsNeon, target_enums.cpp 916-928. *)
Definition is_neon (t : target) : bool :=
  match t with
  | T_neon_i8x16 | T_neon_i8x32 | T_neon_i16x8 | T_neon_i16x16 | T_neon_i32x4 | T_neon_i32x8 => true
  | _ => false
  end.

(** ISPCTargetIsRiscV, target_enums.cpp 930-937. *)
Definition is_riscv (t : target) : bool :=
  match t with
  | T_rvv_x4 => true
  | _ => false
  end.

(** ISPCTargetIsWasm, target_enums.cpp 939-946. *)
Definition is_wasm (t : target) : bool :=
  match t with
  | T_wasm_i32x4 => true
  | _ => false
  end.

(** ISPCTargetIsGen, target_enums.cpp 948-966. *)
Definition is_gen (t : target) : bool :=
  match t with
  | T_xelp_x8 | T_xelp_x16 | T_xehpg_x8 | T_xehpg_x16 | T_xehpc_x16 | T_xehpc_x32 | T_xelpg_x8 | T_xelpg_x16 | T_xe2hpg_x16 | T_xe2hpg_x32 | T_xe2lpg_x16 | T_xe2lpg_x32 => true
  | _ => false
  end.

(** ISPCTargetIsGeneric, target_enums.cpp 968-987. *)
Definition is_generic (t : target) : bool :=
  match t with
  | T_generic_i1x4 | T_generic_i1x8 | T_generic_i1x16 | T_generic_i1x32 | T_generic_i1x64 | T_generic_i8x16 | T_generic_i8x32 | T_generic_i16x8 | T_generic_i16x16 | T_generic_i32x4 | T_generic_i32x8 | T_generic_i32x16 | T_generic_i64x4 => true
  | _ => false
  end.

(** ISPCTargetIsVSX, target_enums.cpp 989-1001. *)
Definition is_vsx (t : target) : bool :=
  match t with
  | T_vsx_i8x16 | T_vsx_i8x32 | T_vsx_i16x8 | T_vsx_i16x16 | T_vsx_i32x4 | T_vsx_i32x8 => true
  | _ => false
  end.

(** Target::ISA, ispc.h 243-281, in a build with all of ISPC_ARM_ENABLED, ISPC_PPC64_ENABLED, ISPC_RISCV_ENABLED, ISPC_WASM_ENABLED
    and ISPC_XE_ENABLED; the first ones are those of DispatchModel.v. *)
Inductive tisa := X (i : isa) | NEON | VSX | RV64GCV | WASM | XELP | XEHPG | XEHPC | XELPG | XE2HPG | XE2LPG | NUM_ISAS.
(** Target::TargetToISA, ispc.cpp 3019-3190; None: fatal error. *)
Definition target_to_isa (t : target) : option tisa :=
  match t with
  | T_sse2_i32x4 | T_sse2_i32x8 => Some (X SSE2)
  | T_sse4_i8x16 | T_sse4_i16x8 | T_sse4_i32x4 | T_sse4_i32x8 => Some (X SSE42)
  | T_sse41_i8x16 | T_sse41_i16x8 | T_sse41_i32x4 | T_sse41_i32x8 => Some (X SSE41)
  | T_avx1_i32x4 | T_avx1_i32x8 | T_avx1_i32x16 | T_avx1_i64x4 => Some (X AVX)
  | T_avx2_i8x32 | T_avx2_i16x16 | T_avx2_i32x4 | T_avx2_i32x8 | T_avx2_i32x16 | T_avx2_i64x4 => Some (X AVX2)
  | T_avx2vnni_i32x4 | T_avx2vnni_i32x8 | T_avx2vnni_i32x16 => Some (X AVX2VNNI)
  | T_avx512skx_x4 | T_avx512skx_x8 | T_avx512skx_x16 | T_avx512skx_x16_nozmm | T_avx512skx_x32 | T_avx512skx_x64 => Some (X SKX_AVX512)
  | T_avx512icl_x4 | T_avx512icl_x8 | T_avx512icl_x16 | T_avx512icl_x16_nozmm | T_avx512icl_x32 | T_avx512icl_x64 => Some (X ICL_AVX512)
  | T_avx512spr_x4 | T_avx512spr_x8 | T_avx512spr_x16 | T_avx512spr_x32 | T_avx512spr_x64 => Some (X SPR_AVX512)
  | T_avx512gnr_x4 | T_avx512gnr_x8 | T_avx512gnr_x16 | T_avx512gnr_x32 | T_avx512gnr_x64 => Some (X GNR_AVX512)
  | T_avx10_2dmr_x4 | T_avx10_2dmr_x8 | T_avx10_2dmr_x16 | T_avx10_2dmr_x32 | T_avx10_2dmr_x64 => Some (X DMR_AVX10_2)
  | T_avx10_2nvl_x4 | T_avx10_2nvl_x8 | T_avx10_2nvl_x16 | T_avx10_2nvl_x32 | T_avx10_2nvl_x64 => Some (X NVL_AVX10_2)
  | T_neon_i8x16 | T_neon_i8x32 | T_neon_i16x8 | T_neon_i16x16 | T_neon_i32x4 | T_neon_i32x8 => Some (NEON)
  | T_vsx_i8x16 | T_vsx_i8x32 | T_vsx_i16x8 | T_vsx_i16x16 | T_vsx_i32x4 | T_vsx_i32x8 => Some (VSX)
  | T_rvv_x4 => Some (RV64GCV)
  | T_wasm_i32x4 => Some (WASM)
  | T_xelp_x8 | T_xelp_x16 => Some (XELP)
  | T_xehpg_x8 | T_xehpg_x16 => Some (XEHPG)
  | T_xehpc_x16 | T_xehpc_x32 => Some (XEHPC)
  | T_xelpg_x8 | T_xelpg_x16 => Some (XELPG)
  | T_xe2hpg_x16 | T_xe2hpg_x32 => Some (XE2HPG)
  | T_xe2lpg_x16 | T_xe2lpg_x32 => Some (XE2LPG)
  | T_host | T_none | T_error | T_generic_i32x4 | T_generic_i32x8 | T_generic_i8x16 | T_generic_i16x8 | T_generic_i32x16 | T_generic_i64x4 | T_generic_i8x32 | T_generic_i16x16 | T_generic_i1x4 | T_generic_i1x8 | T_generic_i1x16 | T_generic_i1x32 | T_generic_i1x64 => None
  end.

(** Target::ISAToString, ispc.cpp 2895-2954; None: fatal error. *)
Definition isa_to_string (i : tisa) : option string :=
  match i with
  | NEON => Some "neon"
  | VSX => Some "vsx"
  | RV64GCV => Some "rv64gcv"
  | WASM => Some "wasm"
  | X SSE2 => Some "sse2"
  | X SSE41 | X SSE42 => Some "sse4"
  | X AVX => Some "avx"
  | X AVX2 => Some "avx2"
  | X AVX2VNNI => Some "avx2vnni"
  | X SKX_AVX512 => Some "avx512skx"
  | X ICL_AVX512 => Some "avx512icl"
  | X SPR_AVX512 => Some "avx512spr"
  | X GNR_AVX512 => Some "avx512gnr"
  | X DMR_AVX10_2 => Some "avx10_2dmr"
  | X NVL_AVX10_2 => Some "avx10_2nvl"
  | XELP => Some "xelp"
  | XEHPG => Some "xehpg"
  | XEHPC => Some "xehpc"
  | XELPG => Some "xelpg"
  | XE2HPG => Some "xe2hpg"
  | XE2LPG => Some "xe2lpg"
  | _ => None
  end.

(** Target::ISAToTargetString, ispc.cpp 2961-3015; None: fatal error. *)
Definition isa_to_target_string (i : tisa) : option string :=
  match i with
  | NEON => Some "neon-i32x4"
  | VSX => Some "vsx-i32x4"
  | WASM => Some "wasm-i32x4"
  | XELP => Some "xelp-x16"
  | XEHPG => Some "xehpg-x16"
  | XEHPC => Some "xehpc-x16"
  | XELPG => Some "xelpg-x16"
  | XE2HPG => Some "xe2hpg-x16"
  | X SSE2 => Some "sse2-i32x4"
  | X SSE41 => Some "sse4.1-i32x4"
  | X SSE42 => Some "sse4.2-i32x4"
  | X AVX => Some "avx1-i32x8"
  | X AVX2 => Some "avx2-i32x8"
  | X AVX2VNNI => Some "avx2vnni-i32x8"
  | X SKX_AVX512 => Some "avx512skx-x16"
  | X ICL_AVX512 => Some "avx512icl-x16"
  | X SPR_AVX512 => Some "avx512spr-x16"
  | X GNR_AVX512 => Some "avx512gnr-x16"
  | X DMR_AVX10_2 => Some "avx10.2dmr-x16"
  | X NVL_AVX10_2 => Some "avx10.2nvl-x8"
  | _ => None
  end.

(** The gang size, the bits of a mask element, whether masking is free (on which architectures) and the instruction set the
    constructor of Target sets, ispc.cpp 1210-2256. *)
Record attributes := { a_isa : option tisa; vectorWidth : Z; maskBitCount : Z; maskingIsFree : bool; nativeVectorWidth : Z; dataTypeWidth : Z }.
Definition constructed (t : target) (aarch64 : bool) : option attributes :=
  match t with
  | T_generic_i32x4 => Some {| a_isa := None; vectorWidth := 4; maskBitCount := 32; maskingIsFree := false; nativeVectorWidth := 4; dataTypeWidth := 32 |}
  | T_generic_i32x8 => Some {| a_isa := None; vectorWidth := 8; maskBitCount := 32; maskingIsFree := false; nativeVectorWidth := 4; dataTypeWidth := 32 |}
  | T_generic_i8x16 => Some {| a_isa := None; vectorWidth := 16; maskBitCount := 8; maskingIsFree := false; nativeVectorWidth := 16; dataTypeWidth := 8 |}
  | T_generic_i16x8 => Some {| a_isa := None; vectorWidth := 8; maskBitCount := 16; maskingIsFree := false; nativeVectorWidth := 8; dataTypeWidth := 16 |}
  | T_generic_i32x16 => Some {| a_isa := None; vectorWidth := 16; maskBitCount := 32; maskingIsFree := false; nativeVectorWidth := 8; dataTypeWidth := 32 |}
  | T_generic_i64x4 => Some {| a_isa := None; vectorWidth := 4; maskBitCount := 64; maskingIsFree := false; nativeVectorWidth := 8; dataTypeWidth := 64 |}
  | T_generic_i8x32 => Some {| a_isa := None; vectorWidth := 32; maskBitCount := 8; maskingIsFree := false; nativeVectorWidth := 32; dataTypeWidth := 8 |}
  | T_generic_i16x16 => Some {| a_isa := None; vectorWidth := 16; maskBitCount := 16; maskingIsFree := false; nativeVectorWidth := 16; dataTypeWidth := 16 |}
  | T_generic_i1x4 => Some {| a_isa := None; vectorWidth := 4; maskBitCount := 1; maskingIsFree := true; nativeVectorWidth := 16; dataTypeWidth := 32 |}
  | T_generic_i1x8 => Some {| a_isa := None; vectorWidth := 8; maskBitCount := 1; maskingIsFree := true; nativeVectorWidth := 16; dataTypeWidth := 32 |}
  | T_generic_i1x16 => Some {| a_isa := None; vectorWidth := 16; maskBitCount := 1; maskingIsFree := true; nativeVectorWidth := 16; dataTypeWidth := 32 |}
  | T_generic_i1x32 => Some {| a_isa := None; vectorWidth := 32; maskBitCount := 1; maskingIsFree := true; nativeVectorWidth := 64; dataTypeWidth := 16 |}
  | T_generic_i1x64 => Some {| a_isa := None; vectorWidth := 64; maskBitCount := 1; maskingIsFree := true; nativeVectorWidth := 64; dataTypeWidth := 8 |}
  | T_sse2_i32x4 => Some {| a_isa := Some (X SSE2); vectorWidth := 4; maskBitCount := 32; maskingIsFree := false; nativeVectorWidth := 4; dataTypeWidth := 32 |}
  | T_sse2_i32x8 => Some {| a_isa := Some (X SSE2); vectorWidth := 8; maskBitCount := 32; maskingIsFree := false; nativeVectorWidth := 4; dataTypeWidth := 32 |}
  | T_sse4_i8x16 => Some {| a_isa := Some (X SSE42); vectorWidth := 16; maskBitCount := 8; maskingIsFree := false; nativeVectorWidth := 16; dataTypeWidth := 8 |}
  | T_sse41_i8x16 => Some {| a_isa := Some (X SSE41); vectorWidth := 16; maskBitCount := 8; maskingIsFree := false; nativeVectorWidth := 16; dataTypeWidth := 8 |}
  | T_sse4_i16x8 => Some {| a_isa := Some (X SSE42); vectorWidth := 8; maskBitCount := 16; maskingIsFree := false; nativeVectorWidth := 8; dataTypeWidth := 16 |}
  | T_sse41_i16x8 => Some {| a_isa := Some (X SSE41); vectorWidth := 8; maskBitCount := 16; maskingIsFree := false; nativeVectorWidth := 8; dataTypeWidth := 16 |}
  | T_sse4_i32x4 => Some {| a_isa := Some (X SSE42); vectorWidth := 4; maskBitCount := 32; maskingIsFree := false; nativeVectorWidth := 4; dataTypeWidth := 32 |}
  | T_sse41_i32x4 => Some {| a_isa := Some (X SSE41); vectorWidth := 4; maskBitCount := 32; maskingIsFree := false; nativeVectorWidth := 4; dataTypeWidth := 32 |}
  | T_sse4_i32x8 => Some {| a_isa := Some (X SSE42); vectorWidth := 8; maskBitCount := 32; maskingIsFree := false; nativeVectorWidth := 4; dataTypeWidth := 32 |}
  | T_sse41_i32x8 => Some {| a_isa := Some (X SSE41); vectorWidth := 8; maskBitCount := 32; maskingIsFree := false; nativeVectorWidth := 4; dataTypeWidth := 32 |}
  | T_avx1_i32x4 => Some {| a_isa := Some (X AVX); vectorWidth := 4; maskBitCount := 32; maskingIsFree := false; nativeVectorWidth := 8; dataTypeWidth := 32 |}
  | T_avx1_i32x8 => Some {| a_isa := Some (X AVX); vectorWidth := 8; maskBitCount := 32; maskingIsFree := false; nativeVectorWidth := 8; dataTypeWidth := 32 |}
  | T_avx1_i32x16 => Some {| a_isa := Some (X AVX); vectorWidth := 16; maskBitCount := 32; maskingIsFree := false; nativeVectorWidth := 8; dataTypeWidth := 32 |}
  | T_avx1_i64x4 => Some {| a_isa := Some (X AVX); vectorWidth := 4; maskBitCount := 64; maskingIsFree := false; nativeVectorWidth := 8; dataTypeWidth := 64 |}
  | T_avx2_i8x32 => Some {| a_isa := Some (X AVX2); vectorWidth := 32; maskBitCount := 8; maskingIsFree := false; nativeVectorWidth := 32; dataTypeWidth := 8 |}
  | T_avx2_i16x16 => Some {| a_isa := Some (X AVX2); vectorWidth := 16; maskBitCount := 16; maskingIsFree := false; nativeVectorWidth := 16; dataTypeWidth := 16 |}
  | T_avx2_i32x4 => Some {| a_isa := Some (X AVX2); vectorWidth := 4; maskBitCount := 32; maskingIsFree := false; nativeVectorWidth := 8; dataTypeWidth := 32 |}
  | T_avx2vnni_i32x4 => Some {| a_isa := Some (X AVX2VNNI); vectorWidth := 4; maskBitCount := 32; maskingIsFree := false; nativeVectorWidth := 8; dataTypeWidth := 32 |}
  | T_avx2_i32x8 => Some {| a_isa := Some (X AVX2); vectorWidth := 8; maskBitCount := 32; maskingIsFree := false; nativeVectorWidth := 8; dataTypeWidth := 32 |}
  | T_avx2vnni_i32x8 => Some {| a_isa := Some (X AVX2VNNI); vectorWidth := 8; maskBitCount := 32; maskingIsFree := false; nativeVectorWidth := 8; dataTypeWidth := 32 |}
  | T_avx2_i32x16 => Some {| a_isa := Some (X AVX2); vectorWidth := 16; maskBitCount := 32; maskingIsFree := false; nativeVectorWidth := 16; dataTypeWidth := 32 |}
  | T_avx2vnni_i32x16 => Some {| a_isa := Some (X AVX2VNNI); vectorWidth := 16; maskBitCount := 32; maskingIsFree := false; nativeVectorWidth := 16; dataTypeWidth := 32 |}
  | T_avx2_i64x4 => Some {| a_isa := Some (X AVX2); vectorWidth := 4; maskBitCount := 64; maskingIsFree := false; nativeVectorWidth := 8; dataTypeWidth := 64 |}
  | T_avx512skx_x4 => Some {| a_isa := Some (X SKX_AVX512); vectorWidth := 4; maskBitCount := 1; maskingIsFree := true; nativeVectorWidth := 16; dataTypeWidth := 32 |}
  | T_avx512icl_x4 => Some {| a_isa := Some (X ICL_AVX512); vectorWidth := 4; maskBitCount := 1; maskingIsFree := true; nativeVectorWidth := 16; dataTypeWidth := 32 |}
  | T_avx512skx_x8 => Some {| a_isa := Some (X SKX_AVX512); vectorWidth := 8; maskBitCount := 1; maskingIsFree := true; nativeVectorWidth := 16; dataTypeWidth := 32 |}
  | T_avx512icl_x8 => Some {| a_isa := Some (X ICL_AVX512); vectorWidth := 8; maskBitCount := 1; maskingIsFree := true; nativeVectorWidth := 16; dataTypeWidth := 32 |}
  | T_avx512skx_x16 => Some {| a_isa := Some (X SKX_AVX512); vectorWidth := 16; maskBitCount := 1; maskingIsFree := true; nativeVectorWidth := 16; dataTypeWidth := 32 |}
  | T_avx512skx_x16_nozmm => Some {| a_isa := Some (X SKX_AVX512); vectorWidth := 16; maskBitCount := 1; maskingIsFree := true; nativeVectorWidth := 16; dataTypeWidth := 32 |}
  | T_avx512icl_x16 => Some {| a_isa := Some (X ICL_AVX512); vectorWidth := 16; maskBitCount := 1; maskingIsFree := true; nativeVectorWidth := 16; dataTypeWidth := 32 |}
  | T_avx512icl_x16_nozmm => Some {| a_isa := Some (X ICL_AVX512); vectorWidth := 16; maskBitCount := 1; maskingIsFree := true; nativeVectorWidth := 16; dataTypeWidth := 32 |}
  | T_avx512skx_x64 => Some {| a_isa := Some (X SKX_AVX512); vectorWidth := 64; maskBitCount := 1; maskingIsFree := true; nativeVectorWidth := 64; dataTypeWidth := 8 |}
  | T_avx512icl_x64 => Some {| a_isa := Some (X ICL_AVX512); vectorWidth := 64; maskBitCount := 1; maskingIsFree := true; nativeVectorWidth := 64; dataTypeWidth := 8 |}
  | T_avx512skx_x32 => Some {| a_isa := Some (X SKX_AVX512); vectorWidth := 32; maskBitCount := 1; maskingIsFree := true; nativeVectorWidth := 64; dataTypeWidth := 16 |}
  | T_avx512icl_x32 => Some {| a_isa := Some (X ICL_AVX512); vectorWidth := 32; maskBitCount := 1; maskingIsFree := true; nativeVectorWidth := 64; dataTypeWidth := 16 |}
  | T_avx512spr_x4 => Some {| a_isa := Some (X SPR_AVX512); vectorWidth := 4; maskBitCount := 1; maskingIsFree := true; nativeVectorWidth := 16; dataTypeWidth := 32 |}
  | T_avx512gnr_x4 => Some {| a_isa := Some (X GNR_AVX512); vectorWidth := 4; maskBitCount := 1; maskingIsFree := true; nativeVectorWidth := 16; dataTypeWidth := 32 |}
  | T_avx512spr_x8 => Some {| a_isa := Some (X SPR_AVX512); vectorWidth := 8; maskBitCount := 1; maskingIsFree := true; nativeVectorWidth := 16; dataTypeWidth := 32 |}
  | T_avx512gnr_x8 => Some {| a_isa := Some (X GNR_AVX512); vectorWidth := 8; maskBitCount := 1; maskingIsFree := true; nativeVectorWidth := 16; dataTypeWidth := 32 |}
  | T_avx512spr_x16 => Some {| a_isa := Some (X SPR_AVX512); vectorWidth := 16; maskBitCount := 1; maskingIsFree := true; nativeVectorWidth := 16; dataTypeWidth := 32 |}
  | T_avx512gnr_x16 => Some {| a_isa := Some (X GNR_AVX512); vectorWidth := 16; maskBitCount := 1; maskingIsFree := true; nativeVectorWidth := 16; dataTypeWidth := 32 |}
  | T_avx512spr_x64 => Some {| a_isa := Some (X SPR_AVX512); vectorWidth := 64; maskBitCount := 1; maskingIsFree := true; nativeVectorWidth := 64; dataTypeWidth := 8 |}
  | T_avx512gnr_x64 => Some {| a_isa := Some (X GNR_AVX512); vectorWidth := 64; maskBitCount := 1; maskingIsFree := true; nativeVectorWidth := 64; dataTypeWidth := 8 |}
  | T_avx512spr_x32 => Some {| a_isa := Some (X SPR_AVX512); vectorWidth := 32; maskBitCount := 1; maskingIsFree := true; nativeVectorWidth := 64; dataTypeWidth := 16 |}
  | T_avx512gnr_x32 => Some {| a_isa := Some (X GNR_AVX512); vectorWidth := 32; maskBitCount := 1; maskingIsFree := true; nativeVectorWidth := 64; dataTypeWidth := 16 |}
  | T_avx10_2dmr_x4 => Some {| a_isa := Some (X DMR_AVX10_2); vectorWidth := 4; maskBitCount := 1; maskingIsFree := true; nativeVectorWidth := 16; dataTypeWidth := 32 |}
  | T_avx10_2nvl_x4 => Some {| a_isa := Some (X NVL_AVX10_2); vectorWidth := 4; maskBitCount := 1; maskingIsFree := true; nativeVectorWidth := 16; dataTypeWidth := 32 |}
  | T_avx10_2dmr_x8 => Some {| a_isa := Some (X DMR_AVX10_2); vectorWidth := 8; maskBitCount := 1; maskingIsFree := true; nativeVectorWidth := 16; dataTypeWidth := 32 |}
  | T_avx10_2nvl_x8 => Some {| a_isa := Some (X NVL_AVX10_2); vectorWidth := 8; maskBitCount := 1; maskingIsFree := true; nativeVectorWidth := 16; dataTypeWidth := 32 |}
  | T_avx10_2dmr_x16 => Some {| a_isa := Some (X DMR_AVX10_2); vectorWidth := 16; maskBitCount := 1; maskingIsFree := true; nativeVectorWidth := 16; dataTypeWidth := 32 |}
  | T_avx10_2nvl_x16 => Some {| a_isa := Some (X NVL_AVX10_2); vectorWidth := 16; maskBitCount := 1; maskingIsFree := true; nativeVectorWidth := 16; dataTypeWidth := 32 |}
  | T_avx10_2dmr_x32 => Some {| a_isa := Some (X DMR_AVX10_2); vectorWidth := 32; maskBitCount := 1; maskingIsFree := true; nativeVectorWidth := 64; dataTypeWidth := 16 |}
  | T_avx10_2nvl_x32 => Some {| a_isa := Some (X NVL_AVX10_2); vectorWidth := 32; maskBitCount := 1; maskingIsFree := true; nativeVectorWidth := 64; dataTypeWidth := 16 |}
  | T_avx10_2dmr_x64 => Some {| a_isa := Some (X DMR_AVX10_2); vectorWidth := 64; maskBitCount := 1; maskingIsFree := true; nativeVectorWidth := 64; dataTypeWidth := 8 |}
  | T_avx10_2nvl_x64 => Some {| a_isa := Some (X NVL_AVX10_2); vectorWidth := 64; maskBitCount := 1; maskingIsFree := true; nativeVectorWidth := 64; dataTypeWidth := 8 |}
  | T_neon_i8x16 => Some {| a_isa := Some (NEON); vectorWidth := 16; maskBitCount := 8; maskingIsFree := aarch64; nativeVectorWidth := 16; dataTypeWidth := 8 |}
  | T_neon_i8x32 => Some {| a_isa := Some (NEON); vectorWidth := 32; maskBitCount := 8; maskingIsFree := aarch64; nativeVectorWidth := 32; dataTypeWidth := 8 |}
  | T_neon_i16x8 => Some {| a_isa := Some (NEON); vectorWidth := 8; maskBitCount := 16; maskingIsFree := aarch64; nativeVectorWidth := 8; dataTypeWidth := 16 |}
  | T_neon_i16x16 => Some {| a_isa := Some (NEON); vectorWidth := 16; maskBitCount := 16; maskingIsFree := aarch64; nativeVectorWidth := 16; dataTypeWidth := 16 |}
  | T_neon_i32x4 => Some {| a_isa := Some (NEON); vectorWidth := 4; maskBitCount := 32; maskingIsFree := aarch64; nativeVectorWidth := 4; dataTypeWidth := 32 |}
  | T_neon_i32x8 => Some {| a_isa := Some (NEON); vectorWidth := 8; maskBitCount := 32; maskingIsFree := aarch64; nativeVectorWidth := 4; dataTypeWidth := 32 |}
  | T_vsx_i8x16 => Some {| a_isa := Some (VSX); vectorWidth := 16; maskBitCount := 8; maskingIsFree := false; nativeVectorWidth := 16; dataTypeWidth := 8 |}
  | T_vsx_i8x32 => Some {| a_isa := Some (VSX); vectorWidth := 32; maskBitCount := 8; maskingIsFree := false; nativeVectorWidth := 32; dataTypeWidth := 8 |}
  | T_vsx_i16x8 => Some {| a_isa := Some (VSX); vectorWidth := 8; maskBitCount := 16; maskingIsFree := false; nativeVectorWidth := 8; dataTypeWidth := 16 |}
  | T_vsx_i16x16 => Some {| a_isa := Some (VSX); vectorWidth := 16; maskBitCount := 16; maskingIsFree := false; nativeVectorWidth := 16; dataTypeWidth := 16 |}
  | T_vsx_i32x4 => Some {| a_isa := Some (VSX); vectorWidth := 4; maskBitCount := 32; maskingIsFree := false; nativeVectorWidth := 4; dataTypeWidth := 32 |}
  | T_vsx_i32x8 => Some {| a_isa := Some (VSX); vectorWidth := 8; maskBitCount := 32; maskingIsFree := false; nativeVectorWidth := 4; dataTypeWidth := 32 |}
  | T_rvv_x4 => Some {| a_isa := Some (RV64GCV); vectorWidth := 4; maskBitCount := 1; maskingIsFree := false; nativeVectorWidth := 4; dataTypeWidth := 32 |}
  | T_wasm_i32x4 => Some {| a_isa := Some (WASM); vectorWidth := 4; maskBitCount := 32; maskingIsFree := false; nativeVectorWidth := 4; dataTypeWidth := 32 |}
  | T_xelp_x8 => Some {| a_isa := Some (XELP); vectorWidth := 8; maskBitCount := 1; maskingIsFree := true; nativeVectorWidth := 8; dataTypeWidth := 32 |}
  | T_xelp_x16 => Some {| a_isa := Some (XELP); vectorWidth := 16; maskBitCount := 1; maskingIsFree := true; nativeVectorWidth := 16; dataTypeWidth := 32 |}
  | T_xehpg_x8 => Some {| a_isa := Some (XEHPG); vectorWidth := 8; maskBitCount := 1; maskingIsFree := true; nativeVectorWidth := 8; dataTypeWidth := 32 |}
  | T_xehpg_x16 => Some {| a_isa := Some (XEHPG); vectorWidth := 16; maskBitCount := 1; maskingIsFree := true; nativeVectorWidth := 16; dataTypeWidth := 32 |}
  | T_xehpc_x16 => Some {| a_isa := Some (XEHPC); vectorWidth := 16; maskBitCount := 1; maskingIsFree := true; nativeVectorWidth := 16; dataTypeWidth := 32 |}
  | T_xehpc_x32 => Some {| a_isa := Some (XEHPC); vectorWidth := 32; maskBitCount := 1; maskingIsFree := true; nativeVectorWidth := 32; dataTypeWidth := 32 |}
  | T_xelpg_x8 => Some {| a_isa := Some (XELPG); vectorWidth := 8; maskBitCount := 1; maskingIsFree := true; nativeVectorWidth := 8; dataTypeWidth := 32 |}
  | T_xelpg_x16 => Some {| a_isa := Some (XELPG); vectorWidth := 16; maskBitCount := 1; maskingIsFree := true; nativeVectorWidth := 16; dataTypeWidth := 32 |}
  | T_xe2hpg_x16 => Some {| a_isa := Some (XE2HPG); vectorWidth := 16; maskBitCount := 1; maskingIsFree := true; nativeVectorWidth := 16; dataTypeWidth := 32 |}
  | T_xe2hpg_x32 => Some {| a_isa := Some (XE2HPG); vectorWidth := 32; maskBitCount := 1; maskingIsFree := true; nativeVectorWidth := 32; dataTypeWidth := 32 |}
  | T_xe2lpg_x16 => Some {| a_isa := Some (XE2LPG); vectorWidth := 16; maskBitCount := 1; maskingIsFree := true; nativeVectorWidth := 16; dataTypeWidth := 32 |}
  | T_xe2lpg_x32 => Some {| a_isa := Some (XE2LPG); vectorWidth := 32; maskBitCount := 1; maskingIsFree := true; nativeVectorWidth := 32; dataTypeWidth := 32 |}
  | T_none | T_host | T_error => None
  end.

(** targetParentMap and GetParentTarget, builtins.cpp 473-591; the flag marks entries compiled only with LLVM 22 and later. *)
Definition parent_table : list (target * bool * target) :=
  [
   (T_neon_i8x16, false, T_generic_i8x16);
   (T_neon_i8x32, false, T_generic_i8x32);
   (T_neon_i16x8, false, T_generic_i16x8);
   (T_neon_i16x16, false, T_generic_i16x16);
   (T_neon_i32x4, false, T_generic_i32x4);
   (T_neon_i32x8, false, T_generic_i32x8);
   (T_vsx_i8x16, false, T_generic_i8x16);
   (T_vsx_i8x32, false, T_generic_i8x32);
   (T_vsx_i16x8, false, T_generic_i16x8);
   (T_vsx_i16x16, false, T_generic_i16x16);
   (T_vsx_i32x4, false, T_generic_i32x4);
   (T_vsx_i32x8, false, T_generic_i32x8);
   (T_rvv_x4, false, T_generic_i1x4);
   (T_avx10_2dmr_x4, false, T_avx512gnr_x4);
   (T_avx10_2dmr_x8, false, T_avx512gnr_x8);
   (T_avx10_2dmr_x16, false, T_avx512gnr_x16);
   (T_avx10_2dmr_x32, false, T_avx512gnr_x32);
   (T_avx10_2dmr_x64, false, T_avx512gnr_x64);
   (T_avx10_2nvl_x4, true, T_avx512icl_x4);
   (T_avx10_2nvl_x8, true, T_avx512icl_x8);
   (T_avx10_2nvl_x16, true, T_avx512icl_x16);
   (T_avx10_2nvl_x32, true, T_avx512icl_x32);
   (T_avx10_2nvl_x64, true, T_avx512icl_x64);
   (T_avx512gnr_x4, false, T_avx512spr_x4);
   (T_avx512spr_x4, false, T_avx512icl_x4);
   (T_avx512icl_x4, false, T_avx512skx_x4);
   (T_avx512skx_x4, false, T_generic_i1x4);
   (T_avx512gnr_x8, false, T_avx512spr_x8);
   (T_avx512spr_x8, false, T_avx512icl_x8);
   (T_avx512icl_x8, false, T_avx512skx_x8);
   (T_avx512skx_x8, false, T_generic_i1x8);
   (T_avx512gnr_x16, false, T_avx512spr_x16);
   (T_avx512spr_x16, false, T_avx512icl_x16);
   (T_avx512icl_x16, false, T_avx512skx_x16);
   (T_avx512skx_x16, false, T_generic_i1x16);
   (T_avx512icl_x16_nozmm, false, T_avx512skx_x16_nozmm);
   (T_avx512skx_x16_nozmm, false, T_generic_i1x16);
   (T_avx512gnr_x32, false, T_avx512spr_x32);
   (T_avx512spr_x32, false, T_avx512icl_x32);
   (T_avx512icl_x32, false, T_avx512skx_x32);
   (T_avx512skx_x32, false, T_generic_i1x32);
   (T_avx512gnr_x64, false, T_avx512spr_x64);
   (T_avx512spr_x64, false, T_avx512icl_x64);
   (T_avx512icl_x64, false, T_avx512skx_x64);
   (T_avx512skx_x64, false, T_generic_i1x64);
   (T_avx2vnni_i32x4, false, T_avx2_i32x4);
   (T_avx2_i32x4, false, T_avx1_i32x4);
   (T_avx1_i32x4, false, T_sse4_i32x4);
   (T_sse4_i32x4, false, T_sse41_i32x4);
   (T_sse41_i32x4, false, T_sse2_i32x4);
   (T_sse2_i32x4, false, T_generic_i32x4);
   (T_avx2vnni_i32x8, false, T_avx2_i32x8);
   (T_avx2_i32x8, false, T_avx1_i32x8);
   (T_avx1_i32x8, false, T_sse4_i32x8);
   (T_sse4_i32x8, false, T_sse41_i32x8);
   (T_sse41_i32x8, false, T_sse2_i32x8);
   (T_sse2_i32x8, false, T_generic_i32x8);
   (T_avx2vnni_i32x16, false, T_avx2_i32x16);
   (T_avx2_i32x16, false, T_avx1_i32x16);
   (T_avx1_i32x16, false, T_generic_i32x16);
   (T_avx2_i64x4, false, T_avx1_i64x4);
   (T_avx1_i64x4, false, T_generic_i64x4);
   (T_avx2_i16x16, false, T_generic_i16x16);
   (T_avx2_i8x32, false, T_generic_i8x32);
   (T_sse4_i8x16, false, T_sse41_i8x16);
   (T_sse41_i8x16, false, T_generic_i8x16);
   (T_sse4_i16x8, false, T_sse41_i16x8);
   (T_sse41_i16x8, false, T_generic_i16x8);
   (T_wasm_i32x4, false, T_generic_i32x4)].
