(** Model of graphs/netlists.py: the text form of netlists.
    Simplified: text is a list of ascii characters, read after the translation
    of line ends; numbers and the constants True, False, None are represented
    by their text, which stands for python's [repr] (the inverse of
    [literal_eval] on them); string literals contain no quote, backslash, comma
    or line end; tuples are flat.  The python parser and [eval] on anything else
    are given from outside.  The five lists of a netlist (dictionaries,
    components, labels, nodes, arguments) are one list of records. *)
From Coq Require Import Ascii String List Bool Arith.
From Verif Require Import Py.
Import ListNotations.
Local Open Scope char_scope.
Local Open Scope list_scope.
Local Open Scope nat_scope.

Definition text := list ascii.
Definition T (s : string) : text := list_ascii_of_string s.
Definition nl : ascii := "010".
Definition chr_in (c : ascii) (l : list ascii) : bool := existsb (Ascii.eqb c) l.
(** [str.isspace] on ascii characters. *)
Definition is_space (c : ascii) : bool :=
  let n := nat_of_ascii c in
  ((9 <=? n) && (n <=? 13)) || ((28 <=? n) && (n <=? 32)).

(** [before, _, after = t.partition(c)]. *)
Fixpoint partition (c : ascii) (t : text) : text * text :=
  match t with
  | [] => ([], [])
  | a :: t' => if Ascii.eqb a c then ([], t') else let '(x, y) := partition c t' in (a :: x, y)
  end.
(** [t.split(c)]. *)
Fixpoint split_on (c : ascii) (t : text) : list text :=
  match t with
  | [] => [[]]
  | a :: t' => if Ascii.eqb a c then [] :: split_on c t'
               else match split_on c t' with [] => [[a]] | w :: ws => (a :: w) :: ws end
  end.
(** [t.split()]: [w] is the word being read. *)
Fixpoint words_from (w : text) (t : text) : list text :=
  match t with
  | [] => match w with [] => [] | _ => [w] end
  | a :: t' => if is_space a then match w with [] => words_from [] t' | _ => w :: words_from [] t' end
               else words_from (w ++ [a]) t'
  end.
Definition words (t : text) : list text := words_from [] t.
(** [t.replace(' ', '')], [t.count(c)]. *)
Definition no_spaces (t : text) : text := filter (fun a => negb (Ascii.eqb a " ")) t.
Definition count (c : ascii) (t : text) : nat := length (filter (Ascii.eqb c) t).
(** [file.readlines()]. *)
Fixpoint lines (t : text) : list text :=
  match t with
  | [] => []
  | a :: t' => if Ascii.eqb a nl then [a] :: lines t'
               else match lines t' with [] => [[a]] | l :: ls => (a :: l) :: ls end
  end.

(** ** Python values and literals *)
Inductive atom := AStr (s : text) | ALit (t : text).
Inductive pyval := VAtom (a : atom) | VTup (l : list atom).

(** Decimal numbers: optional sign, digits, fraction, exponent.  (Python refuses
    the integers with leading zeros, and accepts other forms of numbers.) *)
Definition is_digit (c : ascii) : bool := let n := nat_of_ascii c in (48 <=? n) && (n <=? 57).
Inductive num_state := NStart | NSign | NInt | NDot | NDotInt | NFrac | NExp | NExpSign | NExpInt.
Definition num_step (s : num_state) (c : ascii) : option num_state :=
  let sign := chr_in c ["+"; "-"] in
  let e := chr_in c ["e"; "E"] in
  match s with
  | NStart => if sign then Some NSign else if is_digit c then Some NInt
              else if Ascii.eqb c "." then Some NDot else None
  | NSign => if is_digit c then Some NInt else if Ascii.eqb c "." then Some NDot else None
  | NInt => if is_digit c then Some NInt else if Ascii.eqb c "." then Some NDotInt
            else if e then Some NExp else None
  | NDot => if is_digit c then Some NFrac else None
  | NDotInt => if is_digit c then Some NFrac else if e then Some NExp else None
  | NFrac => if is_digit c then Some NFrac else if e then Some NExp else None
  | NExp => if sign then Some NExpSign else if is_digit c then Some NExpInt else None
  | NExpSign => if is_digit c then Some NExpInt else None
  | NExpInt => if is_digit c then Some NExpInt else None
  end.
Fixpoint num_run (s : num_state) (t : text) : bool :=
  match t with
  | [] => match s with NInt | NDotInt | NFrac | NExpInt => true | _ => false end
  | c :: t' => match num_step s c with Some s' => num_run s' t' | None => false end
  end.
Definition text_eqb (a b : text) : bool := if list_eq_dec ascii_dec a b then true else false.
Definition is_lit (t : text) : bool :=
  num_run NStart t || existsb (text_eqb t) [T "True"; T "False"; T "None"].

(** The parser ignores a line end at the end. *)
Definition chomp (t : text) : text :=
  match rev t with a :: r => if Ascii.eqb a nl then rev r else t | [] => t end.
Definition quote : ascii := "'".
Definition dquote : ascii := """".
Definition plain (c : ascii) : bool := negb (chr_in c [quote; dquote; "\"; ","; nl]).
Definition is_str (t : text) : option text :=
  match t with
  | q :: t' => if chr_in q [quote; dquote] then
                 match rev t' with
                 | q' :: r => if Ascii.eqb q' q && forallb plain (rev r) then Some (rev r) else None
                 | [] => None
                 end
               else None
  | [] => None
  end.
Definition atom_of (t : text) : option atom :=
  match is_str t with
  | Some s => Some (AStr s)
  | None => if is_lit t then Some (ALit t) else None
  end.
Fixpoint atoms_of (l : list text) : option (list atom) :=
  match l with
  | [] => Some []
  | t :: l' => match atom_of t, atoms_of l' with Some a, Some r => Some (a :: r) | _, _ => None end
  end.
(** The pieces between commas; a comma may end the list. *)
Definition tuple_of (t : text) : option pyval :=
  let l := split_on "," t in
  match rev l with
  | [] :: r => option_map VTup (atoms_of (rev r))
  | _ => match l with
         | [w] => option_map VAtom (atom_of w)
         | _ => option_map VTup (atoms_of l)
         end
  end.
Definition literal (t : text) : option pyval :=
  let t := chomp t in
  match t with
  | "(" :: t' => match rev t' with
                 | ")" :: r => tuple_of (rev r)
                 | _ => None
                 end
  | [] => None
  | _ => tuple_of t
  end.

(** ** Reading *)

Record entry := mkEntry {
  n_dict : text; n_comp : text; n_label : text; n_nodes : pyval; n_args : list (text * pyval)
}.

(** [d.update({k: v})]. *)
Fixpoint args_set (k : text) (v : pyval) (d : list (text * pyval)) : list (text * pyval) :=
  match d with
  | [] => [(k, v)]
  | (k', v') :: d' => if text_eqb k' k then (k', v) :: d' else (k', v') :: args_set k v d'
  end.

Section Read.
  (** Does the text parse as a python expression? *)
  Variable valid : text -> bool.
  (** [eval] on something else than a literal. *)
  Variable ev : text -> result atom.

  (** ast.literal_eval. *)
  Definition literal_eval (t : text) : result pyval :=
    match literal t with
    | Some v => Ok v
    | None => if valid t then Err ValueError else Err SyntaxError
    end.
  (** [eval] on a piece of a tuple. *)
  Definition eval_piece (t : text) : result atom :=
    match atom_of (chomp t) with Some a => Ok a | None => ev t end.

  (** netlists.py L134-142: the value of a parameter. *)
  Definition read_value (value : text) : result pyval :=
    match value with
    | "(" :: t => do l <- rmap eval_piece (split_on "," (removelast t)); Ok (VTup l)
    | _ => match literal_eval value with
           | Err ValueError => Ok (VAtom (AStr value))
           | r => r
           end
    end.
  (** netlists.py L128-143: the loop over the parameters. *)
  Fixpoint read_pars (n : nat) (parameters : text) (pars : list (text * pyval)) : result (list (text * pyval)) :=
    match n with
    | O => Ok pars
    | S n' =>
        let '(par, parameters) := partition ";" parameters in
        let '(key, value) := partition "=" (no_spaces par) in
        do v <- read_value value;
        read_pars n' parameters (args_set key v pars)
    end.
  (** netlists.py L106-144: one line; comments and empty lines give nothing. *)
  Definition read_line (line : text) : result (list entry) :=
    match line with
    | "#" :: _ => Ok []
    | _ =>
        if Nat.eqb (length line) 1 then Ok []
        else
          let '(infos, parameters) := partition ":" line in
          match words infos with
          | diccomp :: label :: si =>
              let '(dic, comp) := partition "." diccomp in
              do nodes <- literal_eval (concat si);
              do pars <- read_pars (count "=" parameters) parameters [];
              Ok [mkEntry dic comp label nodes pars]
          | _ => Err IndexError
          end
    end.
  Fixpoint read_lines (l : list text) : result (list entry) :=
    match l with
    | [] => Ok []
    | a :: l' => do x <- read_line a; do y <- read_lines l'; Ok (x ++ y)
    end.
  (** netlists.py L100-144 [read] into an empty netlist. *)
  Definition read (t : text) : result (list entry) := read_lines (lines t).
End Read.

(** ** Printing *)

(** [str] and [repr] of the values. *)
Definition repr_atom (a : atom) : text :=
  match a with AStr s => [quote] ++ s ++ [quote] | ALit t => t end.
Fixpoint join (sep : text) (l : list text) : text :=
  match l with
  | [] => []
  | [a] => a
  | a :: l' => a ++ sep ++ join sep l'
  end.
Definition str_val (v : pyval) : text :=
  match v with
  | VAtom (AStr s) => s
  | VAtom (ALit t) => t
  | VTup [a] => ["("] ++ repr_atom a ++ [","; ")"]
  | VTup l => ["("] ++ join [","; " "] (map repr_atom l) ++ [")"]
  end.

(** netlists.py L319-373 [print_netlist_line]; the arguments are never None
    after [read]. *)
Definition print_line (e : entry) : text :=
  n_dict e ++ ["."] ++ n_comp e ++ [" "] ++ n_label e ++ [" "] ++ str_val (n_nodes e) ++ [":"] ++
  flat_map (fun p => [" "] ++ fst p ++ ["="] ++ str_val (snd p) ++ [";"]) (n_args e) ++ [nl].
(** netlists.py L146-153 [netlist]; [netlist[:-1]]. *)
Definition netlist (l : list entry) : text := removelast (flat_map print_line l).

(** ** Sum *)

(** netlists.py L82-86 [__add__] with two objects: the first is extended. *)
Definition net_add (net1 net2 : list entry) : list entry := fold_left (fun net l => net ++ [l]) net2 net1.
(** The same with one object twice: python asks for the items 0, 1, ... of the
    netlist that the loop extends; [fuel] bounds the number of passes. *)
Fixpoint net_add_self (fuel : nat) (i : nat) (net : list entry) : result (list entry) :=
  match nth_error net i with
  | None => Ok net
  | Some l => match fuel with
              | O => Err OutOfFuel
              | S fuel => net_add_self fuel (S i) (net ++ [l])
              end
  end.
