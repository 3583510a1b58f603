(** * Vocabulary for the effect of the mutating calls and of statements. *)
From Verif Require Import Base Value Containers Api SpecApi.

(** The elements a call that needs an array works on: those of an array, none for a value that
    counts as empty; [None] for every other value. *)
Definition elements_of (v : value) : option (list value) :=
  match v with
  | VArr Tarray (Some l) => Some l
  | VStr Tnull _ | VStr Tstring [] | VObj Tobject (Some []) => Some []
  | _ => None
  end.
(** The same for the members of an object. *)
Definition members_of (v : value) : option (list (bytes * value)) :=
  match v with
  | VObj Tobject (Some m) => Some m
  | VStr Tnull _ | VStr Tstring [] | VArr Tarray (Some []) => Some []
  | _ => None
  end.

(** [swapped p x v v']: [v'] is [v] with the value at the path [p] replaced by [x] *)
Inductive swapped : path -> value -> value -> value -> Prop :=
| sw_here x v : swapped [] x v x
| sw_idx p x t a v v' b : swapped p x v v' ->
    swapped (Idx (length a) :: p) x (VArr t (Some (a ++ v :: b))) (VArr t (Some (a ++ v' :: b)))
| sw_key p x t k a v v' b : swapped p x v v' -> ~ In k (map fst a) ->
    swapped (Key k :: p) x (VObj t (Some (a ++ (k, v) :: b))) (VObj t (Some (a ++ (k, v') :: b))).
(** [puts st l x st']: [st'] is [st] with the value at [l] replaced by [x] *)
Definition puts (st : store) (l : loc) (x : value) (st' : store) : Prop :=
  exists a v b v', slot l = length a /\ st = a ++ v :: b /\ st' = a ++ v' :: b /\ swapped (steps l) x v v'.
(** what a move leaves behind *)
Inductive emptied : value -> value -> Prop :=
| em_str t s : emptied (VStr t s) (VStr t [])
| em_arr t p : emptied (VArr t p) (VArr t None)
| em_obj t p : emptied (VObj t p) (VObj t None).

(** [yields st e x st']: the expression has the value [x]; moves leave the store [st']. The
    elements of an initializer list are copied into the container, so none may have been moved
    away; of equal keys the first counts. *)
Inductive yields : store -> expr -> value -> store -> Prop :=
| y_null st : yields st ENull (VStr Tnull []) st
| y_true st : yields st (EBool true) (VStr Tboolean (of_string "true")) st
| y_false st : yields st (EBool false) (VStr Tboolean (of_string "false")) st
| y_num st s : yields st (ENum s) (VStr Tnumber s) st
| y_str st s : yields st (EStr s) (VStr Tstring s) st
| y_raw st t s : yields st (ERaw t s) (VStr t s) st
| y_copy st l x : puts st l x st -> owned x -> yields st (ECopy l) x st
| y_move st l x y st' : puts st l x st -> emptied x y -> puts st l y st' -> yields st (EMove l) x st'
| y_arr st es xs st' : yields_all st es xs st' -> Forall owned xs -> yields st (EArr es) (VArr Tarray (Some xs)) st'
| y_obj st ms xs m st' : yields_all st (map snd ms) xs st' -> Forall owned xs ->
    represents m (pairs (combine (map fst ms) xs)) -> yields st (EObj ms) (VObj Tobject (Some m)) st'
with yields_all : store -> list expr -> list value -> store -> Prop :=
| y_nil st : yields_all st [] [] st
| y_cons st e x st1 es xs st2 : yields st e x st1 -> yields_all st1 es xs st2 -> yields_all st (e :: es) (x :: xs) st2.
