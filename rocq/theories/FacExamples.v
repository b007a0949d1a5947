(** Concrete facilities. *)
From Coq Require Import String QArith List Bool Arith ZArith Lia Lqa.
From Verif Require Import Base CompModel ResourceModel BufModel GreedyModel GreedySpec GreedyExamples ExchangeModel TradeModel DreModel
  FacModel FacSpec.
Import ListNotations.
Local Open Scope string_scope.
Local Open Scope Q_scope.

Definition fE : env := mkEnv (1 # 1000000) "manual" 2629846 [] (fun _ => true) (fun _ => 235) (fun _ _ _ => 0)
  (fun _ => true) (fun _ _ => []).
Definition feps : Q := 1 # 1000000.
Definition frecipes (n : string) : option nat := if String.eqb n "leu" then Some 0%nat else None.
Definition fplace (n : nat) : nat := n.
Definition fmgr (t : nat) : Z := (10 + Z.of_nat t)%Z.
Definition fanc (t : nat) : list nat := [].
(** The world after the recipe "leu" has been registered. *)
Definition fw : world := snd (create_from_mass fE [(922350000%Z, 1)] world0).
Definition room (c : option Q) : buf := mkBuf 0 c false false [] [].
Definition frun (n : nat) (fs : list fac) := fac_run fE feps frecipes fplace fmgr fdx None fanc n (fw, fs) 5.
Definition outcome {A B} (x : result A * B) : result A := fst x.
Definition facs {A} (x : result unit * (A * (state * Z))) : list fac := snd (fst (snd (snd x))).
Definition rows {A} (x : result unit * (list (list call) * A)) : list (Z * Z * string) :=
  map (fun r => (tx_sender r, tx_receiver r, tx_commod r)) (transactions (concat (fst (snd x)))).

(** A mine, a plant that doubles what it takes and gives every step, and a store. *)
Definition mine : fac := FSource (mkSrc "ore" "" 5).
Definition plant : fac := FK (mkKf "ore" "fuel" "leu" 3 2 2 2 2 (room None)).
Definition store (c : option Q) : fac := FSink (mkSnk ["fuel"; "ore"] "" 4 (room c)).
Definition park : list fac := [mine; plant; store (Some 100)].

(** One commodity each: the store asks for both. *)
Definition two : list fac := [FSource (mkSrc "fuel" "leu" 4); FSource (mkSrc "ore" "" 4); store None].
(** A store that is full after the first step. *)
Definition small : list fac := [FSource (mkSrc "fuel" "leu" 4); store (Some 4)].
(** A source that is switched off. *)
Definition off : list fac := [FSource (mkSrc "fuel" "leu" 0); store None].

Definition state_of {A} (x : result unit * (A * (state * Z))) : state := fst (snd (snd x)).

Ltac each_fac t N := destruct t as [|[|[|t]]]; cbn in N; try (destruct t; discriminate); injection N as <-.
Lemma recipes_there : forall n c, frecipes n = Some c -> (c < length (w_comps fw))%nat.
Proof. intros n c. unfold frecipes. destruct (String.eqb n "leu"); [|discriminate]. intros H. injection H as <-. vm_compute. lia. Qed.
Lemma leu_known : known frecipes "leu".
Proof. exists 0%nat. reflexivity. Qed.
Lemma empty_in_order c : forall b, room c = b -> b_bulk b = false /\ (b_rs b = [] -> quantity b == 0) /\
  (forall i, In i (b_present b) -> (i < length (w_res fw))%nat).
Proof. intros b <-. cbn. split; auto. split; [intros; reflexivity|]. intros i []. Qed.
Lemma park_ready : ready frecipes fw park.
Proof.
  split; [exact recipes_there|]. intros t f N. each_fac t N; split; cbn; try (intros b H; injection H as H; exact (empty_in_order _ b H)).
  - split; [lra|now left].
  - intros b H. discriminate.
  - split; [lra|exact leu_known].
  - split; [discriminate|now left].
Qed.
Lemma park_steady : forall t f, nth_error park t = Some f -> steady f.
Proof. intros t f N. each_fac t N; cbn; auto. lra. Qed.
Lemma park_room : forall t f, nth_error park t = Some f -> has_room (e_eps fE) f (needs feps 0 3 f).
Proof.
  intros t f N. each_fac t N; intros b c IB CB; cbn in IB; try discriminate; injection IB as <-; cbn in CB; try discriminate.
  injection CB as <-. vm_compute. discriminate.
Qed.
(** Three days in the park. *)
Lemma park_runs : outcome (frun 3 park) = Ok tt.
Proof. vm_compute. reflexivity. Qed.
Lemma two_ready : ready frecipes fw two.
Proof.
  split; [exact recipes_there|]. intros t f N. each_fac t N; split; cbn; try (intros b H; injection H as H; exact (empty_in_order _ b H)).
  - split; [lra|right; exact leu_known].
  - intros b H. discriminate.
  - split; [lra|now left].
  - intros b H. discriminate.
  - split; [discriminate|now left].
Qed.
Lemma small_ready : ready frecipes fw small.
Proof.
  split; [exact recipes_there|]. intros t f N. destruct t as [|[|t]]; cbn in N; try (destruct t; discriminate); injection N as <-;
    split; cbn; try (intros b H; injection H as H; exact (empty_in_order _ b H)).
  - split; [lra|right; exact leu_known].
  - intros b H. discriminate.
  - split; [discriminate|now left].
Qed.
(** Trades put to the supplier and the consumer. *)
Definition fw2 : world := snd (blank fE 4 fw).
Definition fmkt : market := fold_left xstep (request_ops 0 2 0 4 ["ore"]) market0.
Definition a_trade (q : Q) : trade := mkTrade 0 0 q.
Lemma fmkt_target : a_request fw2 (rq_target (req_at fmkt (td_req (a_trade 4)))).
Proof. eexists _, _. vm_compute. split; [reflexivity|]. split; [reflexivity|]. split; [|reflexivity]. lia. Qed.

Definition park_deliveries : list delivery := [mkDl 0 1 "ore" 3; mkDl 0 2 "ore" 2; mkDl 1 2 "fuel" 2].
Definition park_after : list fac :=
  [mine; FK (mkKf "ore" "fuel" "leu" (3 * 2) (2 * 2) 2 2 2 (mkBuf 3 None false false [0%nat] [0%nat]));
   FSink (mkSnk ["fuel"; "ore"] "" 4 (mkBuf 4 (Some 100) false false [1%nat; 2%nat] [1%nat; 2%nat]))].
Lemma park_day : (forall i l, nth_error [park_deliveries] i = Some l -> fair_day feps 0 (map (later i) park) l) /\
  kept (map (later 1) park) (concat [park_deliveries]) park_after.
Proof.
  split.
  - intros [|i] l N; cbn in N; [|destruct i; discriminate]. injection N as <-. split.
    + intros d [<-|[<-|[<-|[]]]]; [exists mine, plant|exists mine, (store (Some 100))|exists plant, (store (Some 100))];
        cbn; unfold feps; repeat split; auto; try lra; reflexivity.
    + intros t f N _. each_fac t N; vm_compute; discriminate.
    + intros t f N. each_fac t N; vm_compute; discriminate.
    + intros t f c N _ _. unfold received_of, total, park_deliveries. cbn [filter dl_to dl_commod].
      each_fac t N; cbn [Nat.eqb andb]; try (vm_compute; discriminate).
      * destruct (String.eqb "ore" c); vm_compute; discriminate.
      * destruct (String.eqb "ore" c), (String.eqb "fuel" c) eqn:EF; try (vm_compute; discriminate).
    + intros t s f g c N1 OC N2 WC WA. left. each_fac t N1; [vm_compute; discriminate|vm_compute; discriminate|discriminate].
  - split; [reflexivity|]. intros t f f' N N'. each_fac t N; cbn in N'; injection N' as <-.
    + split; [reflexivity|vm_compute; reflexivity].
    + split; [cbn; repeat split; auto|vm_compute; reflexivity].
    + split; [cbn; repeat split; auto|vm_compute; reflexivity].
Qed.
