(** * Hexadecimal floating-point literals: src/lex.ll:1043-1117 *)
From Coq Require Import ZArith Bool Ascii String List SpecFloat.
From Verif Require Import Bits TypesModel LexModel.
Import ListNotations.
Local Open Scope Z_scope.

(* IEEE double, round to nearest even *)
Definition dadd := SFadd 53 1024.
Definition dmul := SFmul 53 1024.
Definition ddiv := SFdiv 53 1024.
Definition of_int (n : Z) : spec_float := binary_normalize 53 1024 n 0 false.

(* 1049-1062 ipow2: the two loops; [fuel] bounds the number of rounds *)
Fixpoint ipow2_loop (fuel : nat) (ret : spec_float) (exponent : Z) : spec_float :=
  match fuel with
  | O => ret
  | S fuel => if 16 <? exponent then ipow2_loop fuel (dmul ret (of_int 65536)) (exponent - 16)
              else if 0 <? exponent then ipow2_loop fuel (dmul ret (of_int 2)) (exponent - 1)
              else ret
  end.
Definition ipow2_pos (exponent : Z) : spec_float := ipow2_loop (Z.to_nat exponent) (of_int 1) exponent.
Definition ipow2 (exponent : Z) : spec_float :=
  if exponent <? 0 then ddiv (of_int 1) (ipow2_pos (- exponent)) else ipow2_pos exponent.

(* 1084-1101: the digits after the point, up to 'p' or 'P'; None: assertion *)
Fixpoint fraction (mantissa scale : spec_float) (s : name) : option (spec_float * name) :=
  match s with
  | [] => None
  | c :: r => if char_in "pP" c then Some (mantissa, s)
              else match digit_val c with
                   | Some d => fraction (dadd mantissa (dmul scale (of_int d))) (ddiv scale (of_int 16)) r
                   | None => None
                   end
  end.

(* (int)strtol(ptr, &endptr, 10); None: no digit *)
Definition strtol10 (s : name) : option Z :=
  let magnitude s := match s with c :: _ => if is_digit_of 10 c then Some (fst (run_digits 10 0 s)) else None | [] => None end in
  option_map (fun v => wraps 32 (Z.max (- 2 ^ 63) (Z.min v (2 ^ 63 - 1))))
    match s with
    | c :: r => if Ascii.eqb c "-" then option_map Z.opp (magnitude r) else if Ascii.eqb c "+" then magnitude r else magnitude s
    | [] => None
    end.

(* 1067-1117; the leading "0x" is taken off *)
Definition lParseHexFloat (s : name) : option spec_float :=
  match s with
  | c :: r =>
      if char_in "01" c then
        let mantissa := of_int (if Ascii.eqb c "1" then 1 else 0) in
        match (match r with
               | "."%char :: r => fraction mantissa (ddiv (of_int 1) (of_int 16)) r
               | _ => Some (mantissa, r)
               end) with
        | Some (mantissa, p :: r) =>
            if char_in "pP" p then option_map (fun e => dmul mantissa (ipow2 e)) (strtol10 r) else None
        | _ => None
        end
      else None
  | [] => None
  end.
