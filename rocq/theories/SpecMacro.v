(** * What a call of MEO_JSONIZATION means. Specification only. *)
From Verif Require Import Base Value Containers Conv Macro.

(** the call that lists these members, each with its tags *)
Definition tag_token (t : tag) : token := match t with TagOpt => OptMacro | TagKey k => KeyMacro k end.
Definition member_tokens (m : list tag * bytes) : list token := map tag_token (fst m) ++ [Name (snd m)].
Fixpoint call_of (ms : list (list tag * bytes)) : list token :=
  match ms with
  | [] => []
  | [m] => member_tokens m
  | m :: r => member_tokens m ++ Comma :: call_of r
  end.
(** how many members and tags there are *)
Definition size (ms : list (list tag * bytes)) : nat :=
  fold_right (fun m n => (length (fst m) + 1 + n)%nat) O ms.
(** the fields the call declares, for members of these types and default values *)
Definition declared (type : bytes -> ty) (dflt : bytes -> data) (ms : list (list tag * bytes)) : list (field * ty) :=
  map (fun m => (Field (fst m) (snd m) (dflt (snd m)), type (snd m))) ms.
(** the members of a struct in the order of the call *)
Definition listed (s : struct) (ms : list (list tag * bytes)) : list data := map (fun m => s (snd m)) ms.
(** tokens that can be written in a call *)
Definition written (t : token) : Prop :=
  match t with Comma | Name _ | OptMacro | KeyMacro _ => True | _ => False end.
