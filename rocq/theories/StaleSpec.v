(* What a model means: independent of caches, flags and callbacks. *)
From Coq Require Import String List.
From Verif Require Import StrMap Stale.
Import ListNotations.
Open Scope string_scope.

Section S.
Variable V : Type.
Variable zero : V.
(* c asks for no models but ms and no variables but vs *)
Fixpoint within (ms vs : list string) (c : calc V) : Prop :=
  match c with
  | Ret _ => True
  | GetModel n k => In n ms /\ forall o, within ms vs (k o)
  | GetVar n k => In n vs /\ forall o, within ms vs (k o)
  end.
(* every evaluation of c that succeeds asks for every model of todo *)
Fixpoint strict (todo : string -> Prop) (c : calc V) : Prop :=
  match c with
  | Ret (Some _) => forall m, ~ todo m
  | Ret None => True
  | GetModel n k => forall o, strict (fun m => todo m /\ m <> n) (k o)
  | GetVar n k => forall o, strict todo (k o)
  end.

Variable r : region V.
Variable env : string -> option V.    (* value of a variable (parameter or circuit node) on the region *)

(* means n v: a solution means the values last stored into it, an expression the result of its evaluation in which
   every reference to a model stands for what that model means.  A reference to a model that does not exist is 0,
   unless it is <name>@en0 (@en1) and there is an edge model <name>@n0 (@n1).  A cyclic definition means nothing. *)
Inductive means : string -> V -> Prop :=
| means_data : forall n M, find n (r_models r) = Some M -> m_def M = Data -> means n (m_val M)
| means_expr : forall n M ms vs c v, find n (r_models r) = Some M -> m_def M = Expr ms vs c -> yields c v -> means n v
with yields : calc V -> V -> Prop :=
| y_ret : forall v, yields (Ret (Some v)) v
| y_model : forall n k w v, means n w -> yields (k (Some w)) v -> yields (GetModel n k) v
| y_alias : forall p i M k w v, (i = "0" \/ i = "1") -> p <> "" -> find (p ++ "@en" ++ i) (r_models r) = None ->
    find (p ++ "@n" ++ i) (r_models r) = Some M -> m_edge M = true -> means (p ++ "@n" ++ i) w ->
    yields (k (Some w)) v -> yields (GetModel (p ++ "@en" ++ i) k) v
| y_missing : forall n k v, find n (r_models r) = None ->
    (forall p i M, (i = "0" \/ i = "1") -> p <> "" -> n = p ++ "@en" ++ i -> find (p ++ "@n" ++ i) (r_models r) = Some M -> m_edge M = false) ->
    yields (k (Some zero)) v -> yields (GetModel n k) v
| y_var : forall n k v, yields (k (env n)) v -> yields (GetVar n k) v.
End S.
