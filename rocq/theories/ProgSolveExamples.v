(** The example exchange of ExchangeExamples solved with the optimisation solver. *)
From Coq Require Import String QArith List Bool Arith ZArith Lia Lqa.
From Verif Require Import Base GreedyModel GreedySpec GreedyExamples ExchangeModel ExchangeSpec ExchangeExamples
  ProgModel ProgSpec ProgProofs5 ProgSolveModel ProgSolveSpec.
Import ListNotations.
Open Scope Q_scope.

Definition made_of (excl : bool) : lp :=
  match translate fdx exM_mgr exM with
  | Ok (_, (g, _)) => match prog_made fdx (1 # 1000) excl g with Ok (_, p) => p | _ => mkLP 0 (fun _ => zero_col) [] [] end
  | _ => mkLP 0 (fun _ => zero_col) [] [] end.
Lemma made_unique (good : lp -> (nat -> Q) -> Prop) excl solver : good (made_of excl) (solver (made_of excl)) ->
  solved good fdx exM_mgr (1 # 1000) excl solver exM.
Proof. intros H m1 g t g2 p T P. unfold made_of in H. rewrite T, P in H. exact H. Qed.

(** With exclusive orders: 5 of A, the exclusive order of 4 and 2.5 of B; 5/6 (weighted) is left unmet. *)
Definition exSol : lp -> nat -> Q := fun _ => sol_of [5; 1; 5 # 2; 0; 5 # 6].
Lemma exSol_feasible : solved feasible fdx exM_mgr (1 # 1000) true exSol exM.
Proof.
  apply made_unique. split; [|split];
    [intros i Hi; do 6 (destruct i as [|i]; [vm_compute; split; (discriminate || exact I || auto)|]); vm_compute in Hi; lia
    |intros r Hr; vm_compute in Hr; repeat (destruct Hr as [<-|Hr]; [vm_compute; split; (discriminate || exact I)|]); contradiction
    |intros i Hi; vm_compute in Hi; destruct Hi as [<-|[]]; exists 1%Z; reflexivity].
Qed.
Definition exProg : list trade := [mkTrade 0 0 5; mkTrade 2 2 4; mkTrade 1 1 (5 # 2)].
Lemma exProg_ok : prog_exchange fdx exM_mgr (1 # 1000) true exSol exM = Ok exProg.
Proof. vm_compute. reflexivity. Qed.

(** Without: the cheapest solution sends 5.625 of B and 4 of A, and meets both demands. *)
Definition exSol2 : lp -> nat -> Q := fun _ => sol_of [0; 4; 45 # 8; 0; 0].
Lemma exSol2_optimal : solved optimal fdx exM_mgr (1 # 1000) false exSol2 exM.
Proof.
  apply made_unique. split; [feas|]. intros s (F1 & F2 & _).
  destruct (F1 0%nat) as (B0 & _); [vm_compute; lia|]. destruct (F1 3%nat) as (B3 & _); [vm_compute; lia|].
  destruct (F1 4%nat) as (B4 & _); [vm_compute; lia|].
  destruct (F2 (mkLRow [(1%nat, 6 # 6); (3%nat, 1)] 4 None)) as (L1 & _); [vm_compute; auto|].
  destruct (F2 (mkLRow [(0%nat, 50 # 75); (2%nat, 200 # 150); (4%nat, 1)] (15 # 2) None)) as (L2 & _); [vm_compute; auto 10|].
  assert (C0 : lc_obj (lp_col (made_of false) 0) == 1 # 3) by (vm_compute; reflexivity).
  assert (C1 : lc_obj (lp_col (made_of false) 1) == 1 # 7) by (vm_compute; reflexivity).
  assert (C2 : lc_obj (lp_col (made_of false) 2) == 1 # 2) by (vm_compute; reflexivity).
  assert (C3 : lc_obj (lp_col (made_of false) 3) == 11 # 20) by (vm_compute; reflexivity).
  assert (C4 : lc_obj (lp_col (made_of false) 4) == 11 # 20) by (vm_compute; reflexivity).
  assert (N : lp_ncols (made_of false) = 5%nat) by (vm_compute; reflexivity).
  assert (D0 : lc_lb (lp_col (made_of false) 0) = 0) by (vm_compute; reflexivity).
  assert (D3 : lc_lb (lp_col (made_of false) 3) = 0) by (vm_compute; reflexivity).
  assert (D4 : lc_lb (lp_col (made_of false) 4) = 0) by (vm_compute; reflexivity).
  rewrite D0 in B0. rewrite D3 in B3. rewrite D4 in B4.
  unfold objective. rewrite N. cbn [seq map qsum]. rewrite C0, C1, C2, C3, C4.
  unfold row_val in L1, L2. cbn [lr_coef lr_lb map qsum fst snd] in L1, L2. unfold exSol2, sol_of. cbn [nth].
  setoid_replace (6 # 6) with 1 in L1 by reflexivity. setoid_replace (50 # 75) with (2 # 3) in L2 by reflexivity.
  setoid_replace (200 # 150) with (4 # 3) in L2 by reflexivity. lra.
Qed.
Definition exProg2 : list trade := [mkTrade 2 2 4; mkTrade 1 1 (45 # 8)].
Lemma exProg2_ok : prog_exchange fdx exM_mgr (1 # 1000) false exSol2 exM = Ok exProg2.
Proof. vm_compute. reflexivity. Qed.
