(** What the error listener has to get for a text (specification of C52), on the items of ScanSpec.v. *)
From Verif Require Import Str Tokens LexSpec ScanSpec PlaceSpec ParseKF.
Local Open Scope nat_scope.

(** One list from two, each in its own order *)
Inductive interleaved {T} : list T -> list T -> list T -> Prop :=
| il_end : interleaved [] [] []
| il_left x a b m : interleaved a b m -> interleaved (x :: a) b (x :: m)
| il_right x a b m : interleaved a b m -> interleaved a (x :: b) (x :: m).

Definition text_of (i : item) : str := match i with Seen _ _ t => t | Skipped t => t end.
Definition is_seen (i : item) : bool := match i with Seen _ _ _ => true | Skipped _ => false end.
Definition visible (i : item) : bool := match i with Seen _ false _ => true | _ => false end.
(** The tokens among the items, layout too *)
Definition tokens_among (its : list item) (ts : list tok) : Prop :=
  filter is_seen its = map (fun t => Seen (tt_num (ty t)) (is_layout (ty t)) (tx t)) ts.
(** How many tokens that are not layout *)
Definition visible_in (its : list item) : nat := length (filter visible its).
(** It starts with such a token, or is the end of the text. *)
Definition starts_visible (its : list item) : Prop := match its with i :: _ => visible i = true | [] => True end.
(** The message of a lexing error at line [L], column [C] *)
Definition unreadable (L C : nat) (u : str) : str :=
  lit "line " ++ decimal L ++ lit ":" ++ decimal C ++ lit " token recognition error at: '" ++ u ++ lit "'".
(** The messages of the lexing errors among items that stand behind the text [before] *)
Inductive complaints : str -> list item -> list str -> Prop :=
| cp_end before : complaints before [] []
| cp_seen before k h t its ms : complaints (before ++ t) its ms -> complaints before (Seen k h t :: its) ms
| cp_skipped before u its ms L C : stands before L C -> complaints (before ++ u) its ms -> complaints before (Skipped u :: its) (unreadable L C u :: ms).
