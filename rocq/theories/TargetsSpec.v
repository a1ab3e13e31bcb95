(** The names of targets as documented, docs/ispc.rst 1339-1345: "the target string is of the form [ISA]-i[mask size]x[gang size]",
    "for targets with hardware masking support [ISA]-x[gang size]". *)
From Coq Require Import ZArith List Bool String Ascii.
From Verif Require Import DispatchModel TargetsTables.
Import ListNotations.
Open Scope string_scope.
Open Scope Z_scope.

(** The text before and after the last [c]. *)
Fixpoint cut_last (c : ascii) (s : string) : option (string * string) :=
  match s with
  | EmptyString => None
  | String a r =>
      match cut_last c r with
      | Some (x, y) => Some (String a x, y)
      | None => if Ascii.eqb a c then Some ("", r) else None
      end
  end.
Fixpoint number (acc : Z) (s : string) : option Z :=
  match s with
  | EmptyString => Some acc
  | String c r => let d := Z.of_nat (nat_of_ascii c) - 48 in if (0 <=? d) && (d <=? 9) then number (10 * acc + d) r else None
  end.
Definition decimal (s : string) : option Z := match s with EmptyString => None | _ => number 0 s end.

(** ISA, mask size if given, gang size. *)
Definition fields (s : string) : option (string * option Z * Z) :=
  match cut_last "-" s with
  | Some (isa, String "x" g) => option_map (fun g => (isa, None, g)) (decimal g)
  | Some (isa, String "i" r) =>
      match cut_last "x" r with
      | Some (m, g) => match decimal m, decimal g with Some m, Some g => Some (isa, Some m, g) | _, _ => None end
      | None => None
      end
  | _ => None
  end.

(** Former names: the table docs/ispc.rst 1424-1437, then those accepted and not documented. *)
Definition former_names : list (string * string) :=
  [("avx", "avx1-i32x8"); ("avx1", "avx1-i32x8"); ("avx-x2", "avx1-i32x16"); ("avx2", "avx2-i32x8"); ("avx2-x2", "avx2-i32x16");
   ("sse2", "sse2-i32x4"); ("sse2-x2", "sse2-i32x8"); ("sse4", "sse4.2-i32x4"); ("sse4-x2", "sse4.2-i32x8");
   ("sse4x2", "sse4.2-i32x8"); ("avx1-x2", "avx1-i32x16"); ("neon", "neon-i32x4"); ("vsx", "vsx-i32x4"); ("xelp", "xelp-x16");
   ("avx512skx-i32x4", "avx512skx-x4"); ("avx512skx-i32x8", "avx512skx-x8"); ("avx512skx-i32x16", "avx512skx-x16");
   ("avx512skx-i16x32", "avx512skx-x32"); ("avx512skx-i8x64", "avx512skx-x64")].

(** What the ISA part may be for an instruction set ("sse4" for SSE4.2 and "avx" for AVX are accepted besides the documented names). *)
Definition isa_names (i : tisa) : list string :=
  match i with
  | X SSE2 => ["sse2"] | X SSE41 => ["sse4.1"] | X SSE42 => ["sse4.2"; "sse4"] | X AVX => ["avx1"; "avx"] | X AVX2 => ["avx2"] | X AVX2VNNI => ["avx2vnni"]
  | X SKX_AVX512 => ["avx512skx"] | X ICL_AVX512 => ["avx512icl"] | X SPR_AVX512 => ["avx512spr"] | X GNR_AVX512 => ["avx512gnr"]
  | X DMR_AVX10_2 => ["avx10.2dmr"] | X NVL_AVX10_2 => ["avx10.2nvl"] | X _ => []
  | NEON => ["neon"] | VSX => ["vsx"] | RV64GCV => ["rvv"] | WASM => ["wasm"] | XELP => ["xelp"] | XEHPG => ["xehpg"] | XEHPC => ["xehpc"]
  | XELPG => ["xelpg"] | XE2HPG => ["xe2hpg"] | XE2LPG => ["xe2lpg"] | NUM_ISAS => []
  end.

(** The target [t], under a name with these parts, is what the name says. *)
Definition says (t : target) (isa : string) (mask : option Z) (gang : Z) : Prop :=
  forall aarch64, exists a, constructed t aarch64 = Some a /\
    vectorWidth a = gang /\ maskBitCount a = match mask with Some m => m | None => 1 end /\
    ((isa = "generic" /\ is_generic t = true /\ a_isa a = None) \/
     (exists i, target_to_isa t = Some i /\ a_isa a = Some i /\ In isa (isa_names i))).

(** A list of names as given on the command line. *)
Fixpoint comma_list (l : list string) : string :=
  match l with
  | [] => ""
  | [s] => s
  | s :: l => s ++ "," ++ comma_list l
  end.
Fixpoint has_char (c : ascii) (s : string) : bool :=
  match s with EmptyString => false | String a r => Ascii.eqb a c || has_char c r end.
