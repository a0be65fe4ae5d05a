(** What the QP solver should be called with: the sequence of calls, each started at the previous result or at the NLP iterate. *)
From Coq Require Import ZArith List Bool.
From Verif Require Import WarmModel.
Import ListNotations.

Section X.
Variables Q P XQ XP M W : Type.
Variable cond : Q -> XQ.
Variable csol : Q -> P -> XP.
Variable expand : Q -> XP -> P -> P.
Variable init : W -> Q -> P -> P.

(** a QP of an NLP solver (the first one of a call or not), or a factorization for the sensitivities, at an iterate *)
Inductive ev := Step (first : bool) (w : W) (q : Q) | Fact (w : W) (q : Q).

(** [calls prev out t0 l0 evs cs]: what is to happen from the previous result [prev] and the point [out] *)
Inductive calls (o : nopts) (t0 l0 : Z) : XP -> P -> list ev -> list (call XQ XP) -> Prop :=
| calls_nil prev out : calls o t0 l0 prev out [] []
| calls_step prev out (first : bool) w q rest c cs :
    let from_nlp := first && w_first o && w_nlp o in
    let out' := if from_nlp then init w q out else out in
    c_qp c = cond q ->
    c_start c = (if from_nlp then csol q out' else prev) ->
    warm_start (c_opts c) = (if first && negb (w_first o) then 0%Z else qp_warm o) ->
    iter_max (c_opts c) = qp_iter_max o -> t0_min (c_opts c) = t0 -> lam0_min (c_opts c) = l0 ->
    calls o t0 l0 (c_result c) (expand q (c_result c) out') rest cs ->
    calls o t0 l0 prev out (Step first w q :: rest) (c :: cs)
| calls_fact prev out w q rest c cs :
    c_qp c = cond q ->
    c_start c = csol q (init w q out) ->
    c_opts c = mkSo 3 0 1 (sens_min o) (sens_min o) ->
    calls o t0 l0 (c_result c) (expand q (c_result c) (init w q out)) rest cs ->
    calls o t0 l0 prev out (Fact w q :: rest) (c :: cs).
End X.
Arguments Step {Q W}. Arguments Fact {Q W}. Arguments calls {Q P XQ XP W}.

(** the events run by the model: no scaling, nothing condensed beforehand *)
Section R.
Variables Q P XQ XP M W : Type.
Variable cond : Q -> XQ. Variable crhs : Q -> XQ -> XQ. Variable csol : Q -> P -> XP.
Variable solve : sopts -> XQ -> XP -> M -> XP * M. Variable expand : Q -> XP -> P -> P. Variable init : W -> Q -> P -> P.
Variable be : bool.
Definition shared_seen (out _ : P) : P := out.
Definition shared_back (s _ : P) : P := s.
Definition run_ev (o : nopts) (e : ev Q W) (s : st P XQ XP M) : st P XQ XP M :=
  match e with
  | Step first w q => qp_step cond crhs csol solve expand be shared_seen shared_back init o first false w q q s
  | Fact w q => factorize cond crhs csol solve expand be shared_seen shared_back init o w q q s
  end.
Fixpoint run_evs (o : nopts) (l : list (ev Q W)) (s : st P XQ XP M) : st P XQ XP M :=
  match l with [] => s | e :: r => run_evs o r (run_ev o e s) end.
End R.
Arguments run_ev {Q P XQ XP M W}. Arguments run_evs {Q P XQ XP M W}. Arguments shared_seen {P}. Arguments shared_back {P}.
