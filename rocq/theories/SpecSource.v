(** * Specification for wide strings: the UTF-8 text of a sequence of code points. *)
From Verif Require Import Base Value Spec.

Definition encode (s : list N) : bytes := concat (map utf8 s).
(** the document that consists of one string of one character *)
Definition quoted (c : N) : list N := [91; 34; c; 34; 93].
