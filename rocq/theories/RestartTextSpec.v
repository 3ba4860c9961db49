(* What can be written so that it can be read (C57): the words, names and numbers of a file. *)
From Coq Require Import Ascii String List Bool Arith ZArith.
Import ListNotations.
Require Import Verif.StrMap Verif.Restart Verif.RestartText.
Open Scope string_scope.
Open Scope list_scope.

Definition small : string := "abcdefghijklmnopqrstuvwxyz".
Definition capital : string := "ABCDEFGHIJKLMNOPQRSTUVWXYZ".
Definition of_these (l : list string) (c : ascii) : Prop := Exists (fun s => In c (chars s)) l.
(* a letter, then letters, digits, _ : and @ *)
Definition plain (w : string) : Prop :=
  match chars w with [] => False | c :: t => of_these [small; capital] c /\ Forall (of_these [small; capital; "0123456789_:@"]) t end.
(* a small letter, then small letters, digits and _ *)
Definition option_word (w : string) : Prop :=
  match chars w with [] => False | c :: t => of_these [small] c /\ Forall (of_these [small; "0123456789_"]) t end.
(* no quotation mark and no NUL *)
Definition clean (s : string) : Prop := Forall (fun c => c <> quote /\ c <> zero) (chars s).
(* [sign] digits . digits [exponent] or the like: the scanner takes it for a FLOAT *)
Definition numeral (t : text) : Prop := exists n, n = length t /\ longest (Alt float1 (Alt float2 float3)) t = Some n.

Section Legible.
Variable A : Type.
Variable show : A -> text.
Variable atof : text -> A.
Definition is_NL (x : lexeme A) : bool := match x with NL _ => true | _ => false end.
Definition legible1 (st : list sec) (bol : bool) (x : lexeme A) : Prop :=
  match x with
  | Line _ w => bol = true /\ plain w
  | Bare _ w => bol = false /\ plain w
  | Opt _ w => in_command st = true /\ option_word w
  | Quoted _ s => clean s
  | Int _ _ | NL _ => True
  | Flt _ a => numeral (show a)
  end.
Fixpoint legible (st : list sec) (bol : bool) (l : list (lexeme A)) : Prop :=
  match l with [] => True | x :: l' => legible1 st bol x /\ legible (snd (lex A st x)) (is_NL x) l' end.
(* a number that was written and read again *)
Definition reread (x : lexeme A) : lexeme A := match x with Flt _ a => Flt A (atof (show a)) | _ => x end.
End Legible.

(* ---- a device that can be written so that it can be read ---- *)
Require Import Verif.RestartWrite.
Section Readable.
Variable A : Type.
(* numbers that can be written *)
Variable ok : A -> Prop.
Definition readable_call (c : call) : Prop := plain (fst c) /\ Forall (fun p => option_word (fst p) /\ clean (snd p)) (snd c).
Definition readable_calls (l : smap call) : Prop := Forall (fun p => clean (fst p) /\ readable_call (snd p)) l.
Definition readable_body (b : body A) : Prop :=
  match b with
  | BBuiltin _ => True
  | BUniform _ a => ok a
  | BData _ vs => Forall (fun v => ok v) vs
  | BParent _ p => clean p
  | BCommand _ n o => readable_call (n, o)
  end.
Definition readable_region (r : sregion A) : Prop :=
  clean (sr_material A r) /\ Forall (fun p => clean (fst p) /\ readable_body (snd (snd p))) (sr_models A r) /\ readable_calls (sr_equations A r).
Definition readable_contact (c : scontact) : Prop := clean (sc_region c) /\ clean (sc_material c) /\ readable_calls (sc_equations c).
Definition readable_interface (i : sinterface) : Prop :=
  clean (si_region0 i) /\ clean (si_region1 i) /\ readable_calls (si_models i) /\ readable_calls (si_equations i).
Definition readable (s : saved A) : Prop :=
  clean (sv_name A s) /\ Forall (fun p => ok (fst (fst p)) /\ ok (snd (fst p)) /\ ok (snd p)) (sv_coords A s) /\
  Forall (fun p => clean (fst p) /\ readable_region (snd p)) (sv_regions A s) /\
  Forall (fun p => clean (fst p) /\ readable_contact (snd p)) (sv_contacts A s) /\
  Forall (fun p => clean (fst p) /\ readable_interface (snd p)) (sv_interfaces A s).

(* the same device with other numbers *)
Variable f : A -> A.
Definition renumber_body (b : body A) : body A :=
  match b with BUniform _ a => BUniform A (f a) | BData _ vs => BData A (map f vs) | _ => b end.
Definition renumber_region (r : sregion A) : sregion A :=
  {| sr_material := sr_material A r; sr_nodes := sr_nodes A r; sr_edges := sr_edges A r; sr_tris := sr_tris A r; sr_tets := sr_tets A r;
     sr_models := map (fun p => (fst p, (fst (snd p), renumber_body (snd (snd p))))) (sr_models A r); sr_equations := sr_equations A r |}.
Definition renumber (s : saved A) : saved A :=
  {| sv_name := sv_name A s; sv_dim := sv_dim A s; sv_coords := map (fun p => (f (fst (fst p)), f (snd (fst p)), f (snd p))) (sv_coords A s);
     sv_regions := map (fun p => (fst p, renumber_region (snd p))) (sv_regions A s); sv_contacts := sv_contacts A s; sv_interfaces := sv_interfaces A s |}.
End Readable.
