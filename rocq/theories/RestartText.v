(* The characters of a devsim file: the scanner of load_devices, src/meshing/DevsimScanner.l:22-310, and the text of what
   write_devices writes (RestartWrite.v), src/meshing/DevsimRestartWriter.cc:32-395.
   The scanner is the one flex makes: of the rules that can be used the longest match is taken, of several the first rule.
   Not modelled: the deprecated sections begin_node_solution and begin_edge_solution, integers beyond int. *)
From Coq Require Import Ascii String List Bool Arith ZArith DecimalString.
Import ListNotations.
Require Import Verif.StrMap Verif.Loader Verif.Restart.
Open Scope string_scope.
Open Scope list_scope.

Notation text := (list ascii).
Definition chars (s : string) : text := list_ascii_of_string s.
Definition tab : ascii := ascii_of_nat 9.
Definition newline : ascii := ascii_of_nat 10.
Definition return_ : ascii := ascii_of_nat 13.
Definition quote : ascii := ascii_of_nat 34.

(* ---------------------------------------------------------------- regular expressions *)
Inductive re := Nul | Eps | Chars (p : ascii -> bool) | Cat (a b : re) | Alt (a b : re) | Star (a : re).
Definition cat (a b : re) : re := match a with Nul => Nul | Eps => b | _ => Cat a b end.
Definition alt (a b : re) : re := match a, b with Nul, _ => b | _, Nul => a | _, _ => Alt a b end.
Fixpoint nullable (r : re) : bool :=
  match r with
  | Nul | Chars _ => false
  | Eps | Star _ => true
  | Cat a b => nullable a && nullable b
  | Alt a b => nullable a || nullable b
  end.
(* what must follow the character c *)
Fixpoint deriv (c : ascii) (r : re) : re :=
  match r with
  | Nul | Eps => Nul
  | Chars p => if p c then Eps else Nul
  | Cat a b => if nullable a then alt (cat (deriv c a) b) (deriv c b) else cat (deriv c a) b
  | Alt a b => alt (deriv c a) (deriv c b)
  | Star a => cat (deriv c a) (Star a)
  end.
(* the length of the longest prefix of t that matches *)
Fixpoint longest (r : re) (t : text) : option nat :=
  let here := if nullable r then Some 0 else None in
  match t with
  | [] => here
  | c :: t' => match longest (deriv c r) t' with Some n => Some (S n) | None => here end
  end.
Definition one (c : ascii) : re := Chars (Ascii.eqb c).
Fixpoint lit (t : text) : re := match t with [] => Eps | c :: t' => Cat (one c) (lit t') end.
Definition plus (a : re) : re := Cat a (Star a).
Definition opt (a : re) : re := Alt a Eps.
Definition between (lo hi : nat) (c : ascii) : bool := Nat.leb lo (nat_of_ascii c) && Nat.leb (nat_of_ascii c) hi.
Definition among (l : text) (c : ascii) : bool := existsb (Ascii.eqb c) l.

(* ---------------------------------------------------------------- the rules, DevsimScanner.l:25-37 *)
Definition digit : ascii -> bool := between 48 57.
Definition upper : ascii -> bool := between 65 90.
Definition lower : ascii -> bool := between 97 122.
Definition sign : re := opt (Chars (among ["+"; "-"]%char)).
Definition digits : re := plus (Chars digit).
Definition digits0 : re := Star (Chars digit).
Definition integer_re : re := Cat (opt (one "-")) digits.
Definition float1 : re := Cat sign (Cat digits0 (Cat (one ".") digits)).
Definition float2 : re := Cat sign (Cat digits (Cat (one ".") digits0)).
Definition float3 : re := Cat sign (Cat digits (Cat (opt (one ".")) (Cat digits0 (Cat (Chars (among ["e"; "E"]%char)) (Cat sign digits))))).
Definition U80 : re := Chars (between 128 191).
Fixpoint times (n : nat) (a : re) : re := match n with 0 => Eps | S n' => Cat a (times n' a) end.
Definition UTF8 : re :=
  Alt (Cat (Chars (between 192 223)) U80)
    (Alt (Cat (Chars (between 224 239)) (times 2 U80))
      (Alt (Cat (Chars (between 240 247)) (times 3 U80))
        (Alt (Cat (Chars (between 248 251)) (times 4 U80)) (Cat (Chars (between 252 253)) (times 5 U80))))).
Definition letter (c : ascii) : bool := upper c || lower c.
Definition word_char (c : ascii) : bool := letter c || digit c || among ["_"; ":"; "@"]%char c.
(* DevsimScanner.l:42-54, 245-286 *)
Definition comment_re : re := Cat (one "#") (Star (Chars (fun c => negb (Ascii.eqb c newline)))).
Definition blank (c : ascii) : bool := among [" "%char; tab; return_] c.
Definition blanks_re : re := plus (Chars blank).
Definition command_re : re := Cat (lit (chars "COMMAND")) (plus (Chars (among [" "%char; tab]))).
Definition option_char (c : ascii) : bool := lower c || digit c || Ascii.eqb c "_".
Definition option_re : re := Cat (one "-") (Cat (Chars lower) (Star (Chars option_char))).
Definition word_re : re := Cat (Alt (Chars letter) UTF8) (Star (Alt (Chars word_char) UTF8)).
Definition quoted_re : re := Cat (one quote) (Cat (Star (Chars (fun c => negb (Ascii.eqb c quote)))) (one quote)).
Definition any_re : re := Chars (fun c => negb (Ascii.eqb c newline)).

Inductive action := ASkip | AEol | AFloat | AInteger | ABegin (s : sec) | AEnd | AKey (k : dkey) | ACommand | AOption | AWord | AQuoted | AOther.
(* the rules with ^ that can be used when the start condition is the innermost section; no two of them match equally long *)
Definition line_rules (st : list sec) : list (re * action) :=
  map (fun p => (lit (chars (fst p)), ABegin (snd p))) (opens st) ++
  match st with
  | [] | S_command :: _ => []
  | s :: _ => [(lit (chars (end_word s)), AEnd)]
  end ++
  match st with
  | S_model MIface :: _ => []
  | S_model _ :: _ => map (fun p => (lit (chars (fst p)), AKey (snd p))) [("DATA", KData); ("BUILTIN", KBuiltin); ("DATAPARENT", KParent); ("UNIFORM", KUniform)]
  | _ => []
  end ++
  (if in_model st then [(command_re, ACommand)] else []).
Definition rules (st : list sec) (bol : bool) : list (re * action) :=
  [(comment_re, ASkip); (blanks_re, ASkip)] ++ (if in_command st then [(one newline, AEol)] else []) ++
  [(one newline, ASkip); (Alt float1 (Alt float2 float3), AFloat); (integer_re, AInteger)] ++
  (if bol then line_rules st else []) ++
  (if in_command st then [(option_re, AOption)] else []) ++
  [(word_re, AWord); (quoted_re, AQuoted); (any_re, AOther)].
(* the longest match, the first of several *)
Fixpoint best (l : list (re * action)) (t : text) : option (nat * action) :=
  match l with
  | [] => None
  | (r, a) :: l' =>
      match longest r t, best l' t with
      | Some n, Some (m, b) => if Nat.ltb n m then Some (m, b) else Some (n, a)
      | Some n, None => Some (n, a)
      | None, o => o
      end
  end.

(* Devsimlval.str = yytext: up to the first NUL *)
Fixpoint c_string (t : text) : text :=
  match t with [] => [] | c :: t' => if Ascii.eqb c zero then [] else c :: c_string t' end.
Definition show_int (z : Z) : text := chars (NilZero.string_of_int (Z.to_int z)).
(* an INT: what atof reads *)
Definition read_int (t : text) : Z :=
  match NilZero.int_of_string (string_of_list_ascii t) with Some d => Z.of_int d | None => 0%Z end.

Section Text.
Variable A : Type.
Variable of_int : Z -> A.
Variable run : list (command A) -> command A -> bool.
Variable builtin : mtype -> string -> bool.
(* operator<< and atof *)
Variable show : A -> text.
Variable atof : text -> A.
Notation token := (token A).

(* the actions, DevsimScanner.l:42-286 *)
Definition perform (a : action) (t : text) (st : list sec) : option token * list sec :=
  match a with
  | ASkip => (None, st)
  | AEol => (Some (TEol A), tl st)
  | AFloat => (Some (TFlt A (atof t)), st)
  | AInteger => (Some (TInt A (read_int t)), st)
  | ABegin s => (Some (TBeg A s), s :: st)
  | AEnd => (Some (TEnd A (hd S_device st)), tl st)
  | AKey k => (Some (TKey A k), st)
  | ACommand => (Some (TCommand A), S_command :: st)
  | AOption => (Some (TOpt A (string_of_list_ascii (tl t))), st)
  | AWord => (Some (TWord A (string_of_list_ascii (c_string t))), st)
  | AQuoted => (Some (TWord A (string_of_list_ascii (let s := c_string t in firstn (length s - 2) (tl s)))), st)
  | AOther => (Some (TOther A), st)
  end.

(* parse_file (Restart.v), one token *)
Definition advance (w : world A) (q : partial A) (o : option token) (st : list sec) : ending A + (world A * partial A) :=
  let w1 l := {| w_stack := st; w_loader := l; w_meshes := w_meshes A w; w_devices := w_devices A w; w_loaded := w_loaded A w |} in
  match o with
  | None => inr (w1 (w_loader A w), q)
  | Some t =>
      match step A of_int (w_meshes A w) (w_loader A w) q t with
      | Go _ l q' =>
          let ms := match w_loader A w, l with None, Some c => co_name A c :: w_meshes A w | _, _ => w_meshes A w end in
          inr ({| w_stack := st; w_loader := l; w_meshes := ms; w_devices := w_devices A w; w_loaded := w_loaded A w |}, q')
      | Stop _ => inl (Failure A (w1 (w_loader A w)))
      | Crash _ => inl (Undefined_ A)
      | Finish _ c q' => finish A of_int run builtin w st c q'
      end
  end.
(* bol: yy_at_bol, whether what was matched before ends a line.  n: at least the number of characters *)
Fixpoint parse_text (n : nat) (w : world A) (q : partial A) (bol : bool) (t : text) : ending A :=
  match t, n with
  | [], _ => if at_end A q then Success A w else Failure A w
  | _, 0 => Undefined_ A
  | _, S n' =>
      match best (rules (w_stack A w) bol) t with
      | None => Undefined_ A
      | Some (m, a) =>
          let (o, st) := perform a (firstn m t) (w_stack A w) in
          match advance w q o st with
          | inl e => e
          | inr (w', q') => parse_text n' w' q' (Ascii.eqb (last (firstn m t) zero) newline) (skipn m t)
          end
      end
  end.
(* load_devices of a file with this text *)
Definition load_text (w : world A) (t : text) : ending A := parse_text (length t) w (fresh A) true t.

(* ---------------------------------------------------------------- what is written *)
Definition lexeme_text (x : lexeme A) : text :=
  match x with
  | Line _ w | Bare _ w => chars w
  | Opt _ w => ("-" :: chars w)%char
  | Quoted _ s => quote :: chars s ++ [quote]
  | Int _ z => show_int z
  | Flt _ a => show a
  | NL _ => [newline]
  end.
(* blanks or tabs between lexemes of a line, none before the end of the line (there may be) nor after it.  The writer
   puts one blank (tabs between numbers); any number is allowed here. *)
Definition is_gap (g : text) : Prop := Forall (fun c => c = " "%char \/ c = tab) g.
Inductive rendered : list (lexeme A) -> text -> Prop :=
| R_end : rendered [] []
| R_line : forall l t, rendered l t -> rendered (NL A :: l) (newline :: t)
| R_last : forall x g l t, rendered (NL A :: l) t -> x <> NL A -> x <> Line A "COMMAND" -> is_gap g -> rendered (x :: NL A :: l) (lexeme_text x ++ g ++ t)
| R_gap : forall x y g l t, rendered (y :: l) t -> x <> NL A -> y <> NL A -> is_gap g -> g <> [] -> rendered (x :: y :: l) (lexeme_text x ++ g ++ t).
End Text.
