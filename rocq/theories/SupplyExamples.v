(** A concrete institution for the examples of C53. *)
From Coq Require Import String QArith List Bool Arith ZArith Lia Lqa.
From Verif Require Import Base GreedySpec ProgModel ProgSpec SupplyModel SupplySpec SupplyProofs SupplyProofs2 SupplyProofs3.
Import ListNotations.
Open Scope Q_scope.
Open Scope string_scope.

(** A building manager with two builders; a small producer (3 for 2) and a large one (5 for 3), each with its own
    builder; a supply-demand manager with one producer manager holding one more producer of 4; demand 15. *)
Definition ex_calls : list op :=
  [NewProducer 0 0; NewProducer 5 3; NewProducer 4 1; NewBuilder; NewBuilder; NewBuildingManager;
   AddInfo 0 "c" 3 2; Add 1 "c"; Add 2 "c"; Add 2 "d"; BuilderReg 0 0 0; BuilderReg 0 1 1; BuilderReg 0 1 2; BuilderUnreg 1 2;
   ManagerReg 0 0 0; ManagerReg 1 0 1; NewProducerManager; NewSupplyDemand; ProducersReg 0 0 2; ProducersReg 0 0 2; SupplyReg 0 0 0;
   RegisterCommodity 0 "c" (fun t => 15 + inject_Z t); RegisterCommodity 0 "c" (fun _ => 0)]%list.
Definition ex_h : list op := rev ex_calls.
Fixpoint exec (w : world) (l : list op) : result world :=
  match l with [] => Ok w | o :: t => match step w o with Ok w' => exec w' t | r => r end end.
Definition ex_w : world := match exec w_empty ex_calls with Ok w => w | _ => w_empty end.

Lemma exec_reached : forall l h w w', reached h w -> exec w l = Ok w' -> reached (rev l ++ h)%list w'.
Proof.
  induction l as [|o t IH]; cbn; intros h w w' R H; [injection H as <-; auto|].
  destruct (step w o) eqn:E; try discriminate. rewrite <- app_assoc. apply (IH (o :: h)%list _ _ (reached_cons _ _ _ _ R E) H).
Qed.
Lemma exec_reached0 l w : exec w_empty l = Ok w -> reached (rev l) w.
Proof. intros H. assert (G := exec_reached l [] w_empty w reached_nil H). rewrite app_nil_r in G. exact G. Qed.
Lemma ex_reached : reached ex_h ex_w.
Proof. apply exec_reached0. reflexivity. Qed.

Definition ex_solver (p : lp) (i : nat) : Q := match i with O => 2 | _ => 1 end.
Definition ex_s : setup := mkSetup [2; 3] [(0%nat, 3); (1%nat, 5)] [(1, 1); (0, 0)]%nat [0; 1]%nat.
Lemma ex_setup : set_up ex_w 0 "c" = Ok ex_s.
Proof. vm_compute. reflexivity. Qed.
Lemma ex_right : solver_right ex_solver ex_w 0 "c" 11.
Proof.
  intros s0 E _. rewrite ex_setup in E. injection E as <-. set (s := ex_s).
  assert (W : forall d sol, feasible (program s d) sol <-> integral sol 2 /\ d <= 3 * sol 0%nat + (5 * sol 1%nat + 0)).
  { intros d sol. unfold feasible, program, integral. cbn. split.
    - intros (A & B & C). destruct (B _ (or_introl eq_refl)) as [B1 _]. cbn in B1. split; [|cbn in B1; unfold row_val in B1; cbn in B1; lra].
      intros i Hi. destruct (C i) as [z Hz]; [lia|]. exists z. split; auto. destruct (A i Hi) as [A1 _]. rewrite Hz in A1. rewrite Zle_Qle. exact A1.
    - intros [A B]. split; [|split].
      + intros i Hi. destruct (A i Hi) as (z & Hz & Ez). split; [|exact I]. rewrite Ez. rewrite Zle_Qle in Hz. exact Hz.
      + intros r [<-|[]]. cbn. split; [unfold row_val; cbn; lra|exact I].
      + intros i Hi. destruct (A i) as (z & _ & Ez); [lia|]. eauto. }
  split.
  - apply W. split; [|cbn; lra]. intros [|[|i]] Hi; [exists 2%Z|exists 1%Z|lia]; split; try lia; reflexivity.
  - intros sol F. apply W in F as [I1 S1]. destruct (I1 0%nat) as (x & Hx & Ex); [lia|]. destruct (I1 1%nat) as (y & Hy & Ey); [lia|].
    unfold objective, s, program. cbn. rewrite Ex, Ey in *.
    assert (K : inject_Z 11 <= inject_Z (3 * x + 5 * y)). { rewrite inject_Z_plus, !inject_Z_mult. change (inject_Z 11) with 11. change (inject_Z 3) with 3. change (inject_Z 5) with 5. lra. }
    rewrite <- Zle_Qle in K.
    assert (K2 : inject_Z 7 <= inject_Z (2 * x + 3 * y)) by (rewrite <- Zle_Qle; lia).
    rewrite inject_Z_plus, !inject_Z_mult in K2. change (inject_Z 7) with 7 in K2. change (inject_Z 2) with 2 in K2. change (inject_Z 3) with 3 in K2. lra.
Qed.
Definition ex_orders : list border := [mkOrder 2 0 0; mkOrder 1 1 1]%list.
Lemma ex_decision : make_build_decision ex_solver ex_w 0 "c" 11 = Ok ex_orders.
Proof. vm_compute. reflexivity. Qed.
Lemma ex_offers b p : offers ex_h 0 "c" b p <-> (b = 0 /\ p = 0)%nat \/ (b = 1 /\ p = 1)%nat.
Proof.
  unfold offers, ex_h. cbn. split.
  - intros ([[_ ->]|[[_ ->]|[]]] & H & _); destruct H as [N [[? ?]|[[? ?]|[[? ?]|[]]]]]; subst; auto; try discriminate; exfalso; apply N; auto.
  - intros [[-> ->]|[-> ->]]; cbn; repeat split; auto; try discriminate; intros [? ?]; discriminate.
Qed.

(** Two builders sharing a producer of capacity 1. *)
Definition sh_calls : list op :=
  [NewProducer 1 1; Add 0 "c"; NewBuilder; NewBuilder; NewBuildingManager; BuilderReg 0 0 0; BuilderReg 0 1 0;
   ManagerReg 0 0 0; ManagerReg 1 0 1]%list.
Definition sh_w : world := match exec w_empty sh_calls with Ok w => w | _ => w_empty end.
Lemma sh_reached : reached (rev sh_calls) sh_w.
Proof. apply exec_reached0. reflexivity. Qed.
Definition sh_s : setup := mkSetup [1; 1] [(0%nat, 1); (1%nat, 1)] [(0, 1); (0, 0)]%nat [0; 0]%nat.
Lemma sh_setup : set_up sh_w 0 "c" = Ok sh_s.
Proof. vm_compute. reflexivity. Qed.
Lemma sh_right sol0 sol1 : (exists a b, (0 <= a)%Z /\ (0 <= b)%Z /\ sol0 = inject_Z a /\ sol1 = inject_Z b /\ (a + b = 2)%Z) ->
  solver_right (fun _ i => match i with O => sol0 | _ => sol1 end) sh_w 0 "c" 2.
Proof.
  intros (a & b & Ha & Hb & -> & -> & AB) s E _. rewrite sh_setup in E. injection E as <-. split.
  - unfold feasible, program. cbn. split; [|split].
    + intros [|[|i]] Hi; try lia; (split; [change 0 with (inject_Z 0); rewrite <- Zle_Qle; lia|exact I]).
    + intros r [<-|[]]. cbn. split; [|exact I]. unfold row_val. cbn.
      assert (K : inject_Z (a + b) == 2) by (rewrite AB; reflexivity). rewrite inject_Z_plus in K. lra.
    + intros i [<-|[<-|[]]]; eauto using Qeq_refl.
  - intros sol (_ & B & _). destruct (B _ (or_introl eq_refl)) as [B1 _]. cbn in B1. unfold row_val in B1. cbn in B1.
    unfold objective, program. cbn. assert (K : inject_Z (a + b) == 2) by (rewrite AB; reflexivity). rewrite inject_Z_plus in K. lra.
Qed.
Lemma sh_offers0 : offers (rev sh_calls) 0 "c" 0 0.
Proof. unfold offers. split; [right; left; auto|]. split; [right; left; auto|]. cbn. discriminate. Qed.
Lemma sh_offers1 : offers (rev sh_calls) 0 "c" 1 0.
Proof. unfold offers. split; [left; auto|]. split; [left; auto|]. cbn. discriminate. Qed.
