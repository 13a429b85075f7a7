(** utils/annotation.go: ParseAnnotation.
    The regular expression is run as Go's regexp runs it: leftmost match, alternatives and repetitions tried in priority
    order.  Characters are the bytes of the string; Go's '.' takes a whole UTF-8 character (or one ill-formed byte), which
    finds the same matches, because every other part of the expression is ASCII and ASCII bytes are never part of a longer
    character. *)
From Verif Require Import Str.
Local Open Scope N_scope.

(** The parts of the expression, each a repetition or alternative of character classes. *)
Inductive pre :=
| PPlus (p : N -> bool)            (** [..]+  greedy *)
| PStar (p : N -> bool)            (** [..]*  greedy *)
| PLazy (p : N -> bool)            (** [..]*? *)
| PChar (c : N)
| PSeq (l : list pre)
| PAlt (a b : pre).

(** All runs of [p]-characters at the front, shortest first, with what follows. *)
Fixpoint runs (p : N -> bool) (s : list N) : list (list N * list N) :=
  ([], s) :: match s with
             | [] => []
             | c :: r => if p c then map (fun ur => (c :: fst ur, snd ur)) (runs p r) else []
             end.
(** The matches at the front of [s] in priority order: text matched, rest. *)
Fixpoint tries (e : pre) (s : list N) : list (list N * list N) :=
  match e with
  | PPlus p => rev (tl (runs p s))
  | PStar p => rev (runs p s)
  | PLazy p => runs p s
  | PChar c => match s with x :: r => if x =? c then [([x], r)] else [] | [] => [] end
  | PSeq l => (fix go (l : list pre) (s : list N) : list (list N * list N) :=
      match l with
      | [] => [([], s)]
      | e :: l' => flat_map (fun ur => map (fun vq => (fst ur ++ fst vq, snd vq)) (go l' (snd ur))) (tries e s)
      end) l s
  | PAlt a b => tries a s ++ tries b s
  end.
(** A sequence, keeping the text of each part. *)
Fixpoint tries_parts (l : list pre) (s : list N) : list (list (list N) * list N) :=
  match l with
  | [] => [([], s)]
  | e :: l' => flat_map (fun ur => map (fun vq => (fst ur :: fst vq, snd vq)) (tries_parts l' (snd ur))) (tries e s)
  end.

(** annotation.go 10: ([a-zA-Z0-9_]+)\s*=\s*(\d+|\'.*?\') *)
Definition re_word (c : N) : bool :=
  ((97 <=? c) && (c <=? 122)) || ((65 <=? c) && (c <=? 90)) || ((48 <=? c) && (c <=? 57)) || (c =? 95).
Definition re_space (c : N) : bool := (c =? 9) || (c =? 10) || (c =? 12) || (c =? 13) || (c =? 32).
Definition re_digit (c : N) : bool := (48 <=? c) && (c <=? 57).
Definition re_dot (c : N) : bool := negb (c =? 10).
Definition regex_annotation : list pre :=
  [PPlus re_word; PStar re_space; PChar 61; PStar re_space; PAlt (PPlus re_digit) (PSeq [PChar 39; PLazy re_dot; PChar 39])].

(** The match at the front, if any: submatches 1 and 2, and the rest of the input. *)
Definition match_here (s : list N) : option (list N * list N * list N) :=
  match tries_parts regex_annotation s with
  | (g, r) :: _ => Some (nth 0 g [], nth 4 g [], r)
  | [] => None
  end.
(** FindAllStringSubmatch(attrs, -1): leftmost matches, not overlapping; no match is empty *)
Fixpoint find_all (fuel : nat) (s : list N) : list (list N * list N) :=
  match fuel with
  | O => []
  | S f =>
    match match_here s with
    | Some (n, v, r) => (n, v) :: find_all f r
    | None => match s with [] => [] | _ :: r => find_all f r end
    end
  end.

(** strings.SplitN(input, "(", 2) when input contains "(" *)
Fixpoint split_paren (s : list N) : option (list N * list N) :=
  match s with
  | [] => None
  | c :: r => if c =? 40 then Some ([], r) else match split_paren r with Some (a, b) => Some (c :: a, b) | None => None end
  end.

(** annotation.go 17-27 and 35-62.  AnnErr: the error "invalid annotation: ..."; AnnPanic: a slice index out of range. *)
Record annotation_value := AnnotationValue { an_target : list N; an_attrs : list (list N * list N) }.
Inductive ann_result := AnnOk (a : annotation_value) | AnnErr | AnnPanic.
Definition parse_annotation (input : list N) : ann_result :=
  if (length input <? 3)%nat then AnnErr
  else match split_paren input with
       | None => AnnErr
       | Some (target, rest) =>
         if negb (last input 0 =? 41) then AnnErr
         else match rest with
              | [] => AnnPanic     (** targetNAttrs[1][:-1] *)
              | _ => let attrs := removelast rest in
                     AnnOk (AnnotationValue target (find_all (S (length attrs)) attrs))
              end
       end.
