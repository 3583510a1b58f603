(** * Layout of pretty-printed text, as a rule on compact JSON text. *)
From Verif Require Import Base Value Spec.

Definition blanks (n : N) : bytes := repeat 32 (N.to_nat n).
(** [layout n st d fresh s] breaks the compact text [s] into lines: a line break after every
    opening bracket and every comma, one before the closing bracket of a container that is not
    empty, one blank after every colon, and [n] blanks per open bracket at the start of a line.
    [d]: number of open brackets; [fresh]: a new line has been started. *)
Fixpoint layout (n : N) (st : lexst) (d : N) (fresh : bool) (s : bytes) : bytes :=
  match s with
  | [] => []
  | c :: r =>
      match st with
      | Outside =>
          if (c =? 91) || (c =? 123) then
            (if fresh then blanks (n * d) else []) ++ c :: 10 :: layout n Outside (d + 1) true r
          else if (c =? 93) || (c =? 125) then
            (if fresh then [] else [10]) ++ blanks (n * (d - 1)) ++ c :: layout n Outside (d - 1) false r
          else if c =? 44 then c :: 10 :: layout n Outside d true r
          else if c =? 58 then c :: 32 :: layout n Outside d false r
          else (if fresh then blanks (n * d) else []) ++ c :: layout n (if c =? 34 then Inside else Outside) d false r
      | Inside => c :: layout n (if c =? 34 then Outside else if c =? 92 then Escaped else Inside) d false r
      | Escaped => c :: layout n Inside d false r
      end
  end.
(** at most [k] containers inside each other *)
Inductive nested : N -> value -> Prop :=
| ne_str k t s : nested k (VStr t s)
| ne_arr k t l : Forall (nested k) l -> nested (k + 1) (VArr t (Some l))
| ne_obj k t m : Forall (fun kv => nested k (snd kv)) m -> nested (k + 1) (VObj t (Some m)).
