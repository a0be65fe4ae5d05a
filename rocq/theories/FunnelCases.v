(** Concrete runs of the funnel on doubles and witnesses for the refuted claims. *)
From Coq Require Import ZArith List Bool Lia.
From Verif Require Import FP Arith SqpModel RtiModel FunnelModel FunnelIeee FunnelWidth.
Import ListNotations.

Definition fstate0 {X} (x : X) : gstate dbl X := mkG (mkFmem f0 I_none false f0 f0 f0) f0 f1 f0 x.
Definition dopts : fopts dbl := funnel_default dbl.

(** run, then inspect the final state with a boolean test *)
Definition fcheck {X} (P : gstate dbl X -> Z -> bool) (r : option (gstate dbl X * Z)) : bool :=
  match r with Some (s, st) => P s st | None => false end.
Lemma fcheck_sound {X} (P : gstate dbl X -> Z -> bool) r : fcheck P r = true -> exists s st, r = Some (s, st) /\ P s st = true.
Proof. destruct r as [[s st]|]; [|discriminate]. intros H. exists s, st. auto. Qed.

(** subnormal widths: an h-type step widens the funnel *)
Definition eta3 : double := fz2 3 (-1074).
Definition sub_opts : fopts dbl :=
  mkFopts (fo_increase dopts) eta3 (fo_decrease dopts) (dcst 5 (-1)) (fo_fraction dopts) (fo_eta dopts)
    (fo_contraction dopts) false (fo_alpha_min dopts) (fo_alpha_reduction dopts) (fo_eps dopts).
Definition sub_dir : direction dbl unit := mkDir (fun x _ => (x, f0, eta3)) f0 f1.
Lemma funnel_widens : exists (o : fopts dbl) (d : direction dbl unit) s s',
  funnel_opts_sets dopts [SetUpper dbl eta3; SetKappa dbl (dcst 5 (-1))] = Ok o /\
  (forall x a, fle f0 (snd (d_trial d x a)) = true) /\
  funnel_step o 5 d (funnel_init o f0 s) = Some (s', ACADOS_SUCCESS) /\
  flt (fwidth (g_mem (funnel_init o f0 s))) (fwidth (g_mem s')) = true.
Proof.
  destruct (fcheck_sound (fun s st => (st =? ACADOS_SUCCESS)%Z && flt (fwidth (g_mem (funnel_init sub_opts f0 (fstate0 tt)))) (fwidth (g_mem s)))
    (funnel_step sub_opts 5 sub_dir (funnel_init sub_opts f0 (fstate0 tt)))) as (s' & st & H & P); [vm_compute; reflexivity|].
  apply andb_prop in P. destruct P as [P1 P2]. apply Z.eqb_eq in P1. subst st.
  exists sub_opts, sub_dir, (fstate0 tt), s'. split.
  { unfold funnel_opts_sets, funnel_opts_set. change (@nleb dbl) with fle. 
    replace (fle eta3 n0) with false by (vm_compute; reflexivity).
    cbn [obind]. replace (fle (dcst 5 (-1)) n0) with false by (vm_compute; reflexivity).
    replace (fle n1 (dcst 5 (-1))) with false by (vm_compute; reflexivity). reflexivity. }
  split; [intros; vm_compute; reflexivity|]. split; [exact H|exact P2].
Qed.

(** an ordinary width near 1.97, kappa just above 3/8, decrease factor the largest double below one:
    an h-type step widens the funnel by one unit in the last place *)
Definition w197 : double := fz2 8897819725737613 (-52).
Definition k38 : double := fz2 6755399441055745 (-54).
Definition below1 : double := fz2 9007199254740991 (-53).
Definition ord_opts : fopts dbl :=
  mkFopts (fo_increase dopts) w197 below1 k38 (fo_fraction dopts) (fo_eta dopts)
    (fo_contraction dopts) false (fo_alpha_min dopts) (fo_alpha_reduction dopts) (fo_eps dopts).
Definition ord_dir : direction dbl unit := mkDir (fun x _ => (x, f0, fmul below1 w197)) f0 f1.
Lemma funnel_widens_ordinary : exists (o : fopts dbl) (d : direction dbl unit) s s',
  funnel_opts_sets dopts [SetUpper dbl w197; SetDecrease dbl below1; SetKappa dbl k38] = Ok o /\
  (forall x a, fle f0 (snd (d_trial d x a)) = true) /\
  funnel_step o 5 d (funnel_init o f0 s) = Some (s', ACADOS_SUCCESS) /\
  flt f1 (fwidth (g_mem (funnel_init o f0 s))) = true /\
  flt (fwidth (g_mem (funnel_init o f0 s))) (fwidth (g_mem s')) = true.
Proof.
  destruct (fcheck_sound (fun s st => (st =? ACADOS_SUCCESS)%Z && flt (fwidth (g_mem (funnel_init ord_opts f0 (fstate0 tt)))) (fwidth (g_mem s)))
    (funnel_step ord_opts 5 ord_dir (funnel_init ord_opts f0 (fstate0 tt)))) as (s' & st & H & P); [vm_compute; reflexivity|].
  apply andb_prop in P. destruct P as [P1 P2]. apply Z.eqb_eq in P1. subst st.
  exists ord_opts, ord_dir, (fstate0 tt), s'. split.
  { unfold funnel_opts_sets, funnel_opts_set. change (@nleb dbl) with fle.
    replace (fle w197 n0) with false by (vm_compute; reflexivity).
    cbn [obind]. replace (fle below1 n0) with false by (vm_compute; reflexivity).
    replace (fle n1 below1) with false by (vm_compute; reflexivity). cbn [orb obind].
    replace (fle k38 n0) with false by (vm_compute; reflexivity).
    replace (fle n1 k38) with false by (vm_compute; reflexivity). reflexivity. }
  split; [intros; vm_compute; reflexivity|]. split; [exact H|]. split; [vm_compute; reflexivity|exact P2].
Qed.

(** the penalty mode survives into the next solve *)
(** iterate: number of steps taken since the start.  First problem: a step that lowers the objective
    at the price of infeasibility, then one whose infeasibility falls too little for the funnel. *)
Definition hist (s : gstate dbl Z) : direction dbl Z :=
  if (g_out s =? 0)%Z then mkDir (fun x _ => ((x + 1)%Z, fopp f1, dcst 145 (-1))) f1 (fopp f1)
  else mkDir (fun x _ => ((x + 1)%Z, fopp f1, dcst 14 0)) f0 f1.
(** Second problem: the objective falls, the infeasibility grows inside the funnel. *)
Definition f_dir : direction dbl Z := mkDir (fun x _ => ((x + 1)%Z, fopp f1, dcst 5 0)) f1 (fopp f1).
(** the user sets the iterate back to [x] *)
Definition restart (x : Z) (s : gstate dbl Z) : gstate dbl Z := mkG (g_mem s) (g_cost s) (g_mult s) (g_step s) x.
Lemma opt_st (r : option (gstate dbl Z * Z)) st : fcheck (fun _ st' => (st' =? st)%Z) r = true -> exists s, r = Some (s, st).
Proof. intros H. apply fcheck_sound in H. destruct H as (s & st' & -> & E). apply Z.eqb_eq in E. subst. eauto. Qed.
Lemma funnel_history : exists (pick1 pick2 : gstate dbl Z -> direction dbl Z) s1 r r',
  funnel_solve dopts 20 2 pick1 f0 f1 (fstate0 0%Z) = Some (s1, ACADOS_SUCCESS) /\
  funnel_solve dopts 20 1 pick2 f0 f1 (fstate0 0%Z) = Some (r, ACADOS_SUCCESS) /\
  funnel_solve dopts 20 1 pick2 f0 f1 (restart 0%Z s1) = Some (r', ACADOS_MINSTEP).
Proof.
  destruct (fcheck_sound (fun s st => (st =? ACADOS_SUCCESS)%Z &&
      fcheck (fun _ st => (st =? ACADOS_MINSTEP)%Z) (funnel_solve dopts 20 1 (fun _ => f_dir) f0 f1 (restart 0%Z s)))
    (funnel_solve dopts 20 2 hist f0 f1 (fstate0 0%Z))) as (s1 & st & H & P); [vm_compute; reflexivity|].
  apply andb_prop in P. destruct P as [P1 P2]. apply Z.eqb_eq in P1. subst st. apply opt_st in P2. destruct P2 as [r' P2].
  destruct (opt_st (funnel_solve dopts 20 1 (fun _ => f_dir) f0 f1 (fstate0 0%Z)) ACADOS_SUCCESS) as [r P3]; [vm_compute; reflexivity|].
  exists hist, (fun _ => f_dir), s1, r, r'. auto.
Qed.

(** the range checks of opts_set let NaN through *)
Lemma funnel_nan_option : exists o, funnel_opts_set dopts (SetKappa dbl fnan) = Ok o /\ isnan (fo_kappa o) = true.
Proof.
  eexists. unfold funnel_opts_set. change (@nleb dbl) with fle. rewrite (FPProofs.fle_nan_l fnan), (FPProofs.fle_nan_r n1 fnan) by reflexivity.
  split; reflexivity.
Qed.

(** summary of a run for the examples: status, iterate, and whether two doubles are as stated *)
Definition fsum {X} (r : option (gstate dbl X * Z)) : option (Z * X * itype * bool) :=
  match r with Some (s, st) => Some (st, g_out s, fitype (g_mem s), fmode (g_mem s)) | None => None end.
Definition h_dir (s : gstate dbl Z) : direction dbl Z := mkDir (fun x _ => ((x + 1)%Z, f1, fmul (dcst 5 (-1)) (fl1 (g_mem s)))) f0 f1.
