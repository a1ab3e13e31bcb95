(** Names of targets, architectures and operating systems on the command line, the output files of a compilation for
    several targets, and the linking of the built-in library along the targets' hierarchy. *)
From Coq Require Import ZArith List Bool String Ascii.
From Verif Require Import DispatchModel TargetsTables.
Import ListNotations.
Open Scope string_scope.

(** ParseISPCTarget, target_enums.cpp 394-597: the first comparison that holds. [llvm22]: built with LLVM 22 or later. *)
Definition parse_target (llvm22 : bool) (s : string) : target :=
  match find (fun r => (s =? fst (fst r)) && (llvm22 || negb (snd (fst r)))) parse_table with
  | Some r => snd r
  | None => T_error
  end.

(** strchr(tstart, ',') and the text before it: the pieces of the loop in ParseISPCTargets, target_enums.cpp 603-630. *)
Fixpoint split_commas (s : string) : list string :=
  match s with
  | EmptyString => [""]
  | String c r =>
      if Ascii.eqb c "," then "" :: split_commas r
      else match split_commas r with
           | [] => [String c ""]      (* not reached *)
           | p :: ps => String c p :: ps
           end
  end.
(** The loop: the targets recognised so far and the text of the others. *)
Definition is_error (t : target) : bool := match t with T_error => true | _ => false end.
Fixpoint parse_pieces (llvm22 : bool) (ps : list string) (targets : list target) (error : string) : list target * string :=
  match ps with
  | [] => (targets, error)
  | p :: ps =>
      let t := parse_target llvm22 p in
      if is_error t then parse_pieces llvm22 ps targets ((if error =? "" then error else error ++ ",") ++ p)
      else parse_pieces llvm22 ps (targets ++ [t])%list error
  end.
Definition parse_targets (llvm22 : bool) (s : string) : list target * string := parse_pieces llvm22 (split_commas s) [] "".

(** Arch, ParseArch, ArchToString, target_enums.h 31, target_enums.cpp 337-392. *)
Inductive arch := A_none | A_x86 | A_x86_64 | A_arm | A_aarch64 | A_riscv64 | A_ppc64le | A_wasm32 | A_wasm64 | A_xe64 | A_error.
Definition parse_arch (s : string) : arch :=
  if s =? "x86" then A_x86
  else if (s =? "x86_64") || (s =? "x86-64") then A_x86_64
  else if s =? "arm" then A_arm
  else if s =? "aarch64" then A_aarch64
  else if s =? "riscv64" then A_riscv64
  else if s =? "ppc64le" then A_ppc64le
  else if s =? "wasm32" then A_wasm32
  else if s =? "wasm64" then A_wasm64
  else if s =? "xe64" then A_xe64
  else A_error.
Definition arch_to_string (a : arch) : string :=
  match a with
  | A_none => "none" | A_x86 => "x86" | A_x86_64 => "x86-64" | A_arm => "arm" | A_aarch64 => "aarch64" | A_riscv64 => "riscv64"
  | A_ppc64le => "ppc64le" | A_wasm32 => "wasm32" | A_wasm64 => "wasm64" | A_xe64 => "xe64" | A_error => "error"
  end.

(** TargetOS, OSToLowerString, target_enums.h 22, target_enums.cpp 1060-1086. *)
Inductive os := O_windows | O_linux | O_custom_linux | O_freebsd | O_macos | O_android | O_ios | O_ps4 | O_ps5 | O_web | O_error.
Definition all_oses := [O_windows; O_linux; O_custom_linux; O_freebsd; O_macos; O_android; O_ios; O_ps4; O_ps5; O_web].
Definition os_to_lower_string (o : os) : string :=
  match o with
  | O_windows => "windows" | O_linux => "linux" | O_custom_linux => "custom_linux" | O_freebsd => "freebsd" | O_macos => "macos"
  | O_android => "android" | O_ios => "ios" | O_ps4 => "ps4" | O_ps5 => "ps5" | O_web => "web" | O_error => "error"
  end.
(** TargetLibRegistry::getSupportedOSes, target_registry.cpp 432-446; [supported] is the bit set m_supported_oses. *)
Fixpoint list_oses (supported : os -> bool) (l : list os) (oses : string) : string :=
  match l with
  | [] => oses
  | o :: l => list_oses supported l (if supported o then (if oses =? "" then oses else oses ++ ", ") ++ os_to_lower_string o else oses)
  end.
Definition get_supported_oses (supported : os -> bool) : string := list_oses supported all_oses "".
(** std::string::find(s) != npos. *)
Fixpoint contains (s t : string) : bool :=
  prefix s t || match t with EmptyString => false | String _ t => contains s t end.
(** ParseOS, target_enums.cpp 1003-1031. *)
Definition parse_os (supported : os -> bool) (s : string) : os :=
  if negb (contains s (get_supported_oses supported)) then O_error
  else if s =? "windows" then O_windows
  else if s =? "linux" then O_linux
  else if s =? "custom_linux" then O_custom_linux
  else if s =? "freebsd" then O_freebsd
  else if s =? "macos" then O_macos
  else if s =? "android" then O_android
  else if s =? "ios" then O_ios
  else if s =? "ps4" then O_ps4
  else if s =? "ps5" then O_ps5
  else if s =? "web" then O_web
  else O_error.

(** lCheckAndFillISAIndices, module.cpp 2618-2640, for targets of any family: None is an error (two variants of one
    instruction set, SSE4.1 together with SSE4.2, or a fatal error of TargetToISA). *)
Definition tisa_num (i : tisa) : Z :=
  match i with
  | X i => num i | NEON => 15 | VSX => 16 | RV64GCV => 17 | WASM => 18 | XELP => 19 | XEHPG => 20 | XEHPC => 21 | XELPG => 22
  | XE2HPG => 23 | XE2LPG => 24 | NUM_ISAS => 25
  end.
Definition tisa_eqb (a b : tisa) : bool := Z.eqb (tisa_num a) (tisa_num b).
Fixpoint check_isas (seen : list tisa) (ts : list target) : option (list tisa) :=
  match ts with
  | [] => Some (rev seen)
  | t :: ts =>
      match target_to_isa t with
      | None => None
      | Some i =>
          if existsb (tisa_eqb i) seen then None
          else if (tisa_eqb i (X SSE42) && existsb (tisa_eqb (X SSE41)) seen) || (tisa_eqb i (X SSE41) && existsb (tisa_eqb (X SSE42)) seen) then None
          else check_isas (i :: seen) ts
      end
  end.

(** std::string::find_last_of(c). *)
Fixpoint find_last_of (c : ascii) (s : string) : option nat :=
  match s with
  | EmptyString => None
  | String a r =>
      match find_last_of c r with
      | Some n => Some (S n)
      | None => if Ascii.eqb a c then Some 0%nat else None
      end
  end.
(** lGetMangledFileName, module.cpp 1878-1896. *)
Definition mangled_file_name (filename isa : string) : string :=
  match find_last_of "." filename with
  | Some n => substring 0%nat n filename ++ "_" ++ isa ++ substring n (length filename - n)%nat filename
  | None => filename ++ "_" ++ isa
  end.
(** Module::Output::OutFileNameTarget for each of the targets of a compilation, module.cpp 1898; None: error. *)
Definition output_files (filename : string) (ts : list target) : option (list string) :=
  match check_isas [] ts with
  | None => None
  | Some isas => fold_right (fun i acc => match isa_to_string i, acc with
                                          | Some s, Some l => Some (mangled_file_name filename s :: l)
                                          | _, _ => None
                                          end) (Some []) isas
  end.

(** GetParentTarget, builtins.cpp 592-598 (as a map: no key occurs twice). *)
Scheme Equality for target.
Definition parent_target (llvm22 : bool) (t : target) : target :=
  match find (fun r => target_beq t (fst (fst r)) && (llvm22 || negb (snd (fst r)))) parent_table with
  | Some r => snd r
  | None => T_none
  end.
(** The loop over the hierarchy in lCollectAllDefinedFunctions, builtins.cpp 629-636; [fuel] bounds its length. *)
Fixpoint hierarchy (fuel : nat) (llvm22 : bool) (t : target) : option (list target) :=
  match fuel with
  | O => None
  | S fuel => match t with
              | T_none => Some []
              | _ => option_map (cons t) (hierarchy fuel llvm22 (parent_target llvm22 t))
              end
  end.
Definition chain (llvm22 : bool) (t : target) : list target := match hierarchy 10 llvm22 t with Some l => l | None => [] end.

(** A function of a bitcode library or of the module: its name and the functions it refers to.  The module also records the
    library a function came from (None: the user's program).  Simplification: only functions, not variables; the functions
    of one library have different names; no function of the user's program is removed. *)
Record func := { f_name : string; f_uses : list string }.
Definition modul := list (func * option target).
Definition defined (m : modul) (n : string) : bool := existsb (fun d => f_name (fst d) =? n) m.
Definition undefined (m : modul) : list string := filter (fun n => negb (defined m n)) (flat_map (fun d => f_uses (fst d)) m).
(** llvm::Linker with LinkOnlyNeeded, called from lAddBitcodeToModule, builtins.cpp 177: the functions which are declared in
    the module and not defined, and what these need in turn.  A round adds the functions needed now; there are at most as many rounds as functions. *)
Fixpoint add_needed (needed : list string) (l : list func) (t : target) (m : modul) : modul :=
  match l with
  | [] => m
  | f :: l => add_needed needed l t (if existsb (String.eqb (f_name f)) needed && negb (defined m (f_name f)) then (m ++ [(f, Some t)])%list else m)
  end.
Fixpoint link_rounds (n : nat) (l : list func) (t : target) (m : modul) : modul :=
  match n with
  | O => m
  | S n => link_rounds n l t (add_needed (undefined m) l t m)
  end.
Definition link_library (l : list func) (t : target) (m : modul) : modul := link_rounds (List.length l) l t m.
(** lHasUnresolvedSymbols, builtins.cpp 601-610. *)
Definition has_unresolved (m : modul) (symbols : list func) : bool :=
  existsb (fun n => existsb (fun f => f_name f =? n) symbols) (undefined m).
(** lLinkTargetBuiltins, builtins.cpp 649-685: the module, and whether "Unresolved symbol" was reported. [lib] gives the library of a target. *)
Fixpoint link_parents (fuel : nat) (llvm22 : bool) (lib : target -> list func) (symbols : list func) (t : target) (m : modul) : option (modul * bool) :=
  match fuel with
  | O => None
  | S fuel =>
      if has_unresolved m symbols then
        match parent_target llvm22 t with
        | T_none => Some (m, true)
        | p => link_parents fuel llvm22 lib symbols p (link_library (lib p) p m)
        end
      else Some (m, false)
  end.
Definition link_target_builtins (llvm22 : bool) (lib : target -> list func) (t : target) (m : modul) : option (modul * bool) :=
  let symbols := lib (last (chain llvm22 t) t) in
  link_parents 10 llvm22 lib symbols t (link_library (lib t) t m).
