(** A concrete exchange that meets the hypotheses of the exchange theorems, and the
    witness against the documented weighting of mutual requests. *)
From Coq Require Import String QArith List Bool Arith ZArith Lia Lqa Permutation.
From Verif Require Import Base GreedyModel GreedySpec GreedyExamples ExchangeModel ExchangeSpec
  ExchangeProofs1.
Import ListNotations.
Open Scope Q_scope.

Lemma run_reach ops : (forall n o, nth_error ops n = Some o ->
    xvalid (fold_left xstep (firstn n ops) market0) o) -> xreach (fold_left xstep ops market0).
Proof.
  induction ops as [|o ops IH] using rev_ind; intros H; [constructor|].
  rewrite fold_left_app. simpl. constructor.
  - apply IH. intros n x E. specialize (H n x). rewrite nth_error_app1 in H by (now apply nth_error_lt in E).
    rewrite firstn_app in H. replace (n - length ops)%nat with 0%nat in H.
    + rewrite app_nil_r in H. auto.
    + apply nth_error_lt in E. lia.
  - specialize (H (length ops) o). rewrite nth_error_app2, Nat.sub_diag in H by lia.
    rewrite firstn_app, Nat.sub_diag, firstn_all, app_nil_r in H. auto.
Qed.
Lemma run_steps ops : forall m, (forall n o, nth_error ops n = Some o -> no_adjust o /\
    xvalid (fold_left xstep (firstn n ops) m) o) -> xsteps m (fold_left xstep ops m).
Proof.
  induction ops as [|o ops IH]; intros m H; simpl; [constructor|].
  destruct (H 0%nat o eq_refl) as [N V]. econstructor; eauto.
  apply IH. intros n x E. apply (H (S n) x E).
Qed.

(** Trader 0 wants either 5 of A or 10 of B; trader 1 wants 4 of A in one piece. Trader 2
    offers 5 (preference 3) and 10 (preference 2) to trader 0 and 6 to trader 1, with a limit of 12
    in total and a limit of 100 on twice the quantity; trader 3 offers 5 that trader 0
    does not want (preference -1). *)
Definition dbl : rsrc -> nat * nat -> tctx -> Q := fun o _ _ => 2 * rs_qty o.
Definition exOps : list xop :=
  [ XNewRPort; XAddRequest 0 (mkRsrc 0 5) 0 "A" 1 false; XAddRequest 0 (mkRsrc 1 10) 0 "B" 1 false;
    XMutual 0 [0%nat; 1%nat];
    XNewRPort; XAddRequest 1 (mkRsrc 2 4) 1 "A" 7 true;
    XCtxR 0; XCtxR 1;
    XNewBPort; XAddBid 0 0 (mkRsrc 3 5) 2 false (Some 3) 0; XAddBid 0 1 (mkRsrc 4 10) 2 false (Some 2) 1;
    XAddBid 0 2 (mkRsrc 5 6) 2 false None 1; XBCons 0 12 CTrivial 0; XBCons 0 100 (CUser dbl) 0;
    XNewBPort; XAddBid 1 0 (mkRsrc 6 5) 3 false (Some (-(1))) 0 ].
Definition exOps2 : list xop := [ XCtxB 0; XCtxB 1 ].
Definition exM0 : market := fold_left xstep exOps market0.
Definition exM : market := fold_left xstep exOps2 exM0.

Lemma exM_reach : xreach exM.
Proof.
  unfold exM, exM0. rewrite <- fold_left_app.
  apply run_reach. intros n o E.
  do 18 (destruct n as [|n]; [injection E as <-; vm_compute; repeat constructor; auto|]).
  destruct n; discriminate.
Qed.
Lemma exM0_steps : xsteps market0 exM0.
Proof.
  apply run_steps. intros n o E.
  do 16 (destruct n as [|n]; [injection E as <-; split; [exact I|]; vm_compute; repeat constructor; auto|]).
  destruct n; discriminate.
Qed.
Lemma one_step m o : no_adjust o -> xvalid m o -> xsteps m (xstep m o).
Proof. intros N V. econstructor; eauto. constructor. Qed.
Definition exM1 : market := xstep exM0 (XCtxB 0).
Lemma exM_eq : exM = xstep exM1 (XCtxB 1).
Proof. unfold exM, exOps2, exM1. cbn [fold_left]. reflexivity. Qed.
Lemma exM1_valid : xvalid exM1 (XCtxB 1).
Proof. vm_compute. repeat constructor. Qed.
Lemma exM_steps : xsteps exM1 exM.
Proof. rewrite exM_eq. exact (one_step exM1 (XCtxB 1) I exM1_valid). Qed.

(** The same as a literal, so that facts about it compute. *)
Definition exL : market := Eval vm_compute in exM.
Lemma exM_lit : exM = exL.
Proof. vm_compute. reflexivity. Qed.

Lemma exM_reqs : all_reqs exM = [0%nat; 1%nat; 2%nat]. Proof. vm_compute. reflexivity. Qed.
Lemma exM_bids : all_bids exM = [0%nat; 2%nat; 1%nat; 3%nat]. Proof. vm_compute. reflexivity. Qed.
Lemma exM_xr : x_rports exM = [0%nat; 1%nat]. Proof. vm_compute. reflexivity. Qed.
Lemma exM_xb : x_bports exM = [0%nat; 1%nat]. Proof. vm_compute. reflexivity. Qed.

Lemma exM_registered : registered exM.
Proof.
  constructor.
  - rewrite exM_xr. repeat constructor; simpl; intuition discriminate.
  - rewrite exM_xb. repeat constructor; simpl; intuition discriminate.
  - intros b. rewrite exM_bids, exM_reqs. intros [<-|[<-|[<-|[<-|[]]]]]; vm_compute; auto.
Qed.
Lemma exM_usable : usable exM.
Proof.
  rewrite exM_lit. constructor.
  - intros r. rewrite <- exM_lit, exM_reqs, exM_lit. intros [<-|[<-|[<-|[]]]]; vm_compute; discriminate.
  - intros b c. rewrite <- exM_lit, exM_bids, exM_lit. intros [<-|[<-|[<-|[<-|[]]]]] IC; cbn in IC;
      destruct IC as [<-|[]]; (split; [exact I|vm_compute; reflexivity]).
  - intros b c. rewrite <- exM_lit, exM_bids, exM_lit. intros [<-|[<-|[<-|[<-|[]]]]] IC; cbn in IC;
      try contradiction; destruct IC as [<-|[<-|[]]];
      (split; [first [exact I|intros o k t k' t'; reflexivity]|vm_compute; reflexivity]).
Qed.
Lemma exM_asking : asking exM.
Proof. intros p. rewrite exM_xr, exM_lit. intros [<-|[<-|[]]]; vm_compute; reflexivity. Qed.
Lemma exM_rated : rated exM.
Proof. intros b. rewrite exM_bids, exM_lit. intros [<-|[<-|[<-|[<-|[]]]]]; eexists; cbn; reflexivity. Qed.
Lemma exM_convertible : all_convertible exM.
Proof.
  split; intros p; [rewrite exM_xr|rewrite exM_xb]; rewrite exM_lit; intros [<-|[<-|[]]] c co r Ic; cbn in Ic;
    try contradiction; destruct Ic as [<-|[<-|[]]]; discriminate.
Qed.
Lemma exM_prefs : forall b, In b (all_bids exM) -> ~ pref_for exM b == 0.
Proof. intros b. rewrite exM_bids, exM_lit. intros [<-|[<-|[<-|[<-|[]]]]]; vm_compute; discriminate. Qed.

Definition exM_mgr : nat -> Z := fun t => (10 + Z.of_nat t)%Z.
Definition same_trades (x y : list trade) : bool :=
  forallb (fun p => Qeqb (td_amt (fst p)) (td_amt (snd p)) && Nat.eqb (td_req (fst p)) (td_req (snd p)) &&
                    Nat.eqb (td_bid (fst p)) (td_bid (snd p))) (combine x y) &&
  Nat.eqb (List.length x) (List.length y).
(** 5 of A and 2.5 of B for trader 0; 4 of A for trader 1 come out of the limit of 12. *)
Lemma exM_trades :
  match solve_exchange fdx exM_mgr (1 # 1000) None exM with
  | Ok ts => same_trades ts [mkTrade 0 0 5; mkTrade 1 1 (5 # 2); mkTrade 2 2 4] = true
  | _ => False end.
Proof. vm_compute. reflexivity. Qed.
(** Trader 0's full order of 5 is filled and 2.5 more are delivered: by the documented weights
    that is 9.375 for a demand of 7.5. *)
Definition exTrades : list trade :=
  Eval vm_compute in match solve_exchange fdx exM_mgr (1 # 1000) None exM with Ok ts => ts | _ => [] end.
Lemma exM_solve : solve_exchange fdx exM_mgr (1 # 1000) None exM = Ok exTrades.
Proof. vm_compute. reflexivity. Qed.
Lemma documented_refuted_proof : exists fd mgr eps m ts p rs,
  fd_ok fd 0 /\ xreach m /\ registered m /\ usable m /\ rp_cons (rp_at m p) = [] /\
  In p (x_rports m) /\ rp_reqs (rp_at m p) = rs /\ rp_qty (rp_at m p) == mean m rs /\
  solve_exchange fd mgr eps None m = Ok ts /\
  rp_qty (rp_at m p) < documented_total m rs (for_rport m p) ts /\
  exists r, In r rs /\ traded (for_request r) ts == rs_qty (rq_target (req_at m r)) /\
            traded (for_request r) ts < traded (for_rport m p) ts.
Proof.
  exists fdx, exM_mgr, (1 # 1000), exM, exTrades, 0%nat, [0%nat; 1%nat].
  split; [exact fdx_ok|]. split; [exact exM_reach|]. split; [exact exM_registered|].
  split; [exact exM_usable|]. split; [vm_compute; reflexivity|]. split; [rewrite exM_xr; simpl; auto|].
  split; [vm_compute; reflexivity|]. split; [vm_compute; reflexivity|]. split; [exact exM_solve|].
  split; [vm_compute; reflexivity|].
  exists 0%nat. split; [simpl; auto|]. split; vm_compute; reflexivity.
Qed.

(** The other way around: with only the order of 10 on offer, 5.625 of it are delivered
    although a full order would meet the demand. *)
Definition under_ops : list xop :=
  [ XNewRPort; XAddRequest 0 (mkRsrc 0 5) 0 "A" 1 false; XAddRequest 0 (mkRsrc 1 10) 0 "B" 1 false;
    XMutual 0 [0%nat; 1%nat]; XCtxR 0;
    XNewBPort; XAddBid 0 1 (mkRsrc 4 10) 2 false (Some 2) 0; XCtxB 0 ].
Definition underM := fold_left xstep under_ops market0.
Lemma underM_reach : xreach underM.
Proof.
  apply run_reach. intros n o E.
  do 8 (destruct n as [|n]; [injection E as <-; vm_compute; repeat constructor; auto|]).
  destruct n; discriminate.
Qed.
Definition underTrades : list trade :=
  Eval vm_compute in match solve_exchange fdx exM_mgr (1 # 1000) None underM with Ok ts => ts | _ => [] end.
Lemma under_solve : solve_exchange fdx exM_mgr (1 # 1000) None underM = Ok underTrades.
Proof. vm_compute. reflexivity. Qed.
Lemma under_refuted_proof : exists m ts r, xreach m /\ solve_exchange fdx exM_mgr (1 # 1000) None m = Ok ts /\
  rp_reqs (rp_at m 0) = [0%nat; r] /\ all_bids m = [0%nat] /\ bd_req (bid_at m 0) = r /\
  rs_qty (bd_offer (bid_at m 0)) == 10 /\ rs_qty (rq_target (req_at m r)) == 10 /\
  traded (for_request r) ts == 45 # 8.
Proof.
  exists underM, underTrades, 1%nat. split; [exact underM_reach|]. split; [exact under_solve|].
  repeat split; vm_compute; reflexivity.
Qed.
