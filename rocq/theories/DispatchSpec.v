(** What a machine can run.  Where cpuid reports a feature: Intel 64 and IA-32 Architectures Software
    Developer's Manual, volume 2, CPUID; Intel Architecture Instruction Set Extensions Programming Reference. *)
From Coq Require Import ZArith List Bool.
From Verif Require Import DispatchModel.
Import ListNotations.
Open Scope Z_scope.

Inductive feature := F_SSE2 | F_SSE41 | F_SSE42 | F_OSXSAVE | F_AVX | F_F16C | F_RDRAND | F_FMA | F_AVX2
  | F_AVX512F | F_AVX512PF | F_AVX512ER | F_AVX512DQ | F_AVX512CD | F_AVX512BW | F_AVX512VL | F_VBMI2 | F_GFNI | F_VAES | F_VPCLMULQDQ | F_VNNI | F_BITALG | F_VPOPCNTDQ
  | F_AMXBF16 | F_AMXTILE | F_AMXINT8 | F_FP16 | F_AVXVNNI | F_BF16 | F_SHA512 | F_SM3 | F_SM4 | F_CMPCCXADD | F_AMXFP16 | F_AVXIFMA
  | F_AVXVNNIINT8 | F_AVXNECONVERT | F_AMXCOMPLEX | F_AVXVNNIINT16 | F_PREFETCHI | F_APX | F_AVX10
  | F_AVX10_2 (* AVX10 version 2 or later *)
  | F_OS_YMM | F_OS_ZMM | F_OS_TILE. (* the operating system saves these registers *)

Definition has_feature (h : host) (f : feature) : bool :=
  let sub1 := fun r n => (1 <=? eax (leaf7 h)) && Z.testbit r n in
  match f with
  | F_SSE2 => Z.testbit (edx (leaf1 h)) 26
  | F_FMA => Z.testbit (ecx (leaf1 h)) 12
  | F_SSE41 => Z.testbit (ecx (leaf1 h)) 19
  | F_SSE42 => Z.testbit (ecx (leaf1 h)) 20
  | F_OSXSAVE => Z.testbit (ecx (leaf1 h)) 27
  | F_AVX => Z.testbit (ecx (leaf1 h)) 28
  | F_F16C => Z.testbit (ecx (leaf1 h)) 29
  | F_RDRAND => Z.testbit (ecx (leaf1 h)) 30
  | F_AVX2 => Z.testbit (ebx (leaf7 h)) 5
  | F_AVX512F => Z.testbit (ebx (leaf7 h)) 16
  | F_AVX512PF => Z.testbit (ebx (leaf7 h)) 26
  | F_AVX512ER => Z.testbit (ebx (leaf7 h)) 27
  | F_AVX512DQ => Z.testbit (ebx (leaf7 h)) 17
  | F_AVX512CD => Z.testbit (ebx (leaf7 h)) 28
  | F_AVX512BW => Z.testbit (ebx (leaf7 h)) 30
  | F_AVX512VL => Z.testbit (ebx (leaf7 h)) 31
  | F_VBMI2 => Z.testbit (ecx (leaf7 h)) 6
  | F_GFNI => Z.testbit (ecx (leaf7 h)) 8
  | F_VAES => Z.testbit (ecx (leaf7 h)) 9
  | F_VPCLMULQDQ => Z.testbit (ecx (leaf7 h)) 10
  | F_VNNI => Z.testbit (ecx (leaf7 h)) 11
  | F_BITALG => Z.testbit (ecx (leaf7 h)) 12
  | F_VPOPCNTDQ => Z.testbit (ecx (leaf7 h)) 14
  | F_AMXBF16 => Z.testbit (edx (leaf7 h)) 22
  | F_FP16 => Z.testbit (edx (leaf7 h)) 23
  | F_AMXTILE => Z.testbit (edx (leaf7 h)) 24
  | F_AMXINT8 => Z.testbit (edx (leaf7 h)) 25
  | F_SHA512 => sub1 (eax (leaf7_1 h)) 0
  | F_SM3 => sub1 (eax (leaf7_1 h)) 1
  | F_SM4 => sub1 (eax (leaf7_1 h)) 2
  | F_AVXVNNI => sub1 (eax (leaf7_1 h)) 4
  | F_BF16 => sub1 (eax (leaf7_1 h)) 5
  | F_CMPCCXADD => sub1 (eax (leaf7_1 h)) 7
  | F_AMXFP16 => sub1 (eax (leaf7_1 h)) 21
  | F_AVXIFMA => sub1 (eax (leaf7_1 h)) 23
  | F_AVXVNNIINT8 => sub1 (edx (leaf7_1 h)) 4
  | F_AVXNECONVERT => sub1 (edx (leaf7_1 h)) 5
  | F_AMXCOMPLEX => sub1 (edx (leaf7_1 h)) 8
  | F_AVXVNNIINT16 => sub1 (edx (leaf7_1 h)) 10
  | F_PREFETCHI => sub1 (edx (leaf7_1 h)) 14
  | F_AVX10 => sub1 (edx (leaf7_1 h)) 19
  | F_APX => sub1 (edx (leaf7_1 h)) 21
  | F_AVX10_2 => 2 <=? ebx (leaf24 h) mod 256
  | F_OS_YMM => Z.testbit (xcr0 h) 1 && Z.testbit (xcr0 h) 2
  | F_OS_ZMM => Z.testbit (xcr0 h) 1 && Z.testbit (xcr0 h) 2 && Z.testbit (xcr0 h) 5 && Z.testbit (xcr0 h) 6 && Z.testbit (xcr0 h) 7
  | F_OS_TILE => Z.testbit (xcr0 h) 17 && Z.testbit (xcr0 h) 18
  end.

(** The features an instruction set consists of, as far as isa.h 200-208, 224-231 names them. *)
Definition avx_set := [F_SSE2; F_SSE41; F_SSE42; F_OSXSAVE; F_OS_YMM; F_AVX].
Definition avx2_set := avx_set ++ [F_F16C; F_RDRAND; F_AVX2].
Definition skx_set := avx2_set ++ [F_OS_ZMM; F_AVX512F; F_AVX512DQ; F_AVX512CD; F_AVX512BW; F_AVX512VL].
Definition icl_set := skx_set ++ [F_VNNI; F_VBMI2; F_GFNI; F_VAES; F_VPCLMULQDQ; F_BITALG; F_VPOPCNTDQ].
Definition amx_set := [F_OS_TILE; F_AMXBF16; F_AMXTILE; F_AMXINT8].
Definition spr_set := icl_set ++ [F_BF16; F_AVXVNNI; F_FP16] ++ amx_set.
Definition gnr_set := spr_set ++ [F_AMXFP16; F_PREFETCHI].
Definition arl_features := [F_AVXVNNIINT8; F_AVXVNNIINT16; F_AVXNECONVERT; F_SHA512; F_SM3; F_SM4; F_AVXIFMA; F_CMPCCXADD].
Definition avx10_2_features := [F_AVX10; F_AVX10_2; F_APX].
Definition needs (i : isa) : list feature :=
  match i with
  | INVALID => []
  | SSE2 => [F_SSE2]
  | SSE41 => [F_SSE2; F_SSE41]
  | SSE42 => [F_SSE2; F_SSE41; F_SSE42]
  | AVX | AVX11 => avx_set
  | AVX2 => avx2_set
  | AVX2VNNI => avx2_set ++ [F_AVXVNNI]
  | KNL_AVX512 => avx2_set ++ [F_OS_ZMM; F_AVX512F; F_AVX512CD]
  | SKX_AVX512 => skx_set
  | ICL_AVX512 => icl_set
  | SPR_AVX512 => spr_set
  | GNR_AVX512 => gnr_set
  | NVL_AVX10_2 => icl_set ++ [F_FP16] ++ arl_features ++ avx10_2_features
  | DMR_AVX10_2 => gnr_set ++ arl_features ++ avx10_2_features ++ [F_AMXCOMPLEX]
  end.
Definition supports (h : host) (i : isa) : Prop := forall f, In f (needs i) -> has_feature h f = true.

(** Features that come only with others, on every processor sold. *)
Record sane (h : host) : Prop := {
  s_sse41 : has_feature h F_SSE41 = true -> has_feature h F_SSE2 = true;
  s_sse42 : has_feature h F_SSE42 = true -> has_feature h F_SSE41 = true;
  s_avx : has_feature h F_AVX = true -> has_feature h F_SSE42 = true;
  s_avx2 : has_feature h F_AVX2 = true -> has_feature h F_AVX = true /\ has_feature h F_F16C = true /\ has_feature h F_RDRAND = true;
  s_avxvnni : has_feature h F_AVXVNNI = true -> has_feature h F_AVX2 = true;
  s_zmm : has_feature h F_OS_ZMM = true -> has_feature h F_OS_YMM = true;
  s_amx : has_feature h F_AVX10 = true -> has_feature h F_AMXTILE = true ->
    has_feature h F_BF16 = true /\ has_feature h F_AVXVNNI = true /\ has_feature h F_AMXFP16 = true /\ has_feature h F_PREFETCHI = true;
  s_leaf24 : 24 <= eax (leaf1 h)
}.

(** Instruction sets for which a program can be compiled. *)
Definition target_isa (i : isa) : Prop := i <> INVALID /\ i <> AVX11 /\ i <> KNL_AVX512.

(** macOS saves the 256-bit registers of every thread, and the 512-bit ones of a thread from the first instruction that
    uses them; xgetbv does not show the latter before that instruction. *)
Definition supports_macos (h : host) (i : isa) : Prop := forall f, In f (needs i) -> f <> F_OS_ZMM -> has_feature h f = true.
