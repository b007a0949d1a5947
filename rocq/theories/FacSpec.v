(** What a facility wants, offers and holds, and what a day's deliveries may look like. *)
From Coq Require Import String QArith List Bool Arith ZArith Lia Permutation.
From Verif Require Import Base ResourceModel BufModel ExchangeModel TradeModel TradeSpec DreModel FacModel.
Import ListNotations.
Open Scope Q_scope.

(** The commodities a facility takes and how much of each it asks for per step. *)
Definition wanted_commods (f : fac) : list string :=
  match f with FSource _ => [] | FSink s => sk_commods s | FK k => [k_in k] end.
Definition wanted_amount (f : fac) : Q :=
  match f with FSource _ => 0 | FSink s => sk_cap s | FK k => k_in_cap k end.
(** The commodity it supplies, if any, and how much per step. *)
Definition offered_commod (f : fac) : option string :=
  match f with FSource s => Some (so_commod s) | FSink _ => None | FK k => Some (k_out k) end.
Definition offered_amount (f : fac) : Q :=
  match f with FSource s => so_cap s | FSink _ => 0 | FK k => k_out_cap k end.
(** Its inventory and what is in it. *)
Definition inventory (f : fac) : option buf :=
  match f with FSource _ => None | FSink s => Some (sk_inv s) | FK k => Some (k_inv k) end.
Definition held (f : fac) : Q := match inventory f with Some b => quantity b | None => 0 end.
(** How much it asks for in total: the amount for each of its commodities. *)
Definition demand (eps : Q) (f : fac) : Q :=
  if Qltb eps (wanted_amount f) then inject_Z (Z.of_nat (length (wanted_commods f))) * wanted_amount f else 0.

(** A facility as an input file may set it up: it supplies something if it is a supplier, takes
    some commodity if it is a consumer, and its recipe is registered. *)
Definition known (recipes : string -> option nat) (n : string) : Prop := exists c, recipes n = Some c.
Definition set_up (recipes : string -> option nat) (f : fac) : Prop :=
  match f with
  | FSource s => 0 < so_cap s /\ (so_recipe s = EmptyString \/ known recipes (so_recipe s))
  | FSink s => sk_commods s <> [] /\ (sk_recipe s = EmptyString \/ known recipes (sk_recipe s))
  | FK k => 0 < k_out_cap k /\ known recipes (k_recipe k)
  end.
(** An inventory in order: an ordinary buffer that is empty when it holds nothing and does not contain
    resources that do not exist. *)
Definition in_order (w : world) (f : fac) : Prop :=
  forall b, inventory f = Some b ->
    b_bulk b = false /\ (b_rs b = [] -> quantity b == 0) /\ (forall i, In i (b_present b) -> (i < length (w_res w))%nat).
(** The inventory could take [q] more. *)
Definition has_room (eps_rsrc : Q) (f : fac) (q : Q) : Prop :=
  forall b c, inventory f = Some b -> b_cap b = Some c -> quantity b + q <= c + eps_rsrc.

(** The settings of two facilities are the same (all but what they hold, and what a KFacility has
    left to give today). *)
Definition same_settings (f g : fac) : Prop :=
  match f, g with
  | FSource s, FSource s' => s = s'
  | FSink s, FSink s' =>
      sk_commods s = sk_commods s' /\ sk_recipe s = sk_recipe s' /\ sk_cap s = sk_cap s' /\
      b_cap (sk_inv s) = b_cap (sk_inv s')
  | FK k, FK k' =>
      k_in k = k_in k' /\ k_out k = k_out k' /\ k_recipe k = k_recipe k' /\ k_in_cap k = k_in_cap k' /\
      k_out_cap k = k_out_cap k' /\ k_fin k = k_fin k' /\ k_fout k = k_fout k' /\
      b_cap (k_inv k) = b_cap (k_inv k')
  | _, _ => False
  end.

(** A delivery, and the totals of a list of deliveries. *)
Record delivery := mkDl { dl_from : nat; dl_to : nat; dl_commod : string; dl_amt : Q }.
Definition total (P : delivery -> bool) (l : list delivery) : Q := qsum (map dl_amt (filter P l)).
Definition sent (t : nat) (l : list delivery) : Q := total (fun d => Nat.eqb (dl_from d) t) l.
Definition received (t : nat) (l : list delivery) : Q := total (fun d => Nat.eqb (dl_to d) t) l.
Definition received_of (t : nat) (c : string) (l : list delivery) : Q :=
  total (fun d => Nat.eqb (dl_to d) t && String.eqb (dl_commod d) c) l.

(** One day's deliveries among the facilities [fs]. *)
Record fair_day (eps tol : Q) (fs : list fac) (l : list delivery) : Prop := mkDay {
  (* every delivery is of something the supplier offers and the receiver asked for *)
  dy_real : forall d, In d l -> exists f g,
    nth_error fs (dl_from d) = Some f /\ offered_commod f = Some (dl_commod d) /\
    nth_error fs (dl_to d) = Some g /\ In (dl_commod d) (wanted_commods g) /\
    eps < wanted_amount g /\ eps < dl_amt d;
  (* no supplier gives more than it can *)
  dy_sent : forall t f, nth_error fs t = Some f -> offered_commod f <> None -> sent t l <= offered_amount f + tol;
  (* no consumer gets more than it asked for *)
  dy_received : forall t f, nth_error fs t = Some f -> received t l <= demand eps f + tol;
  dy_commod : forall t f c, nth_error fs t = Some f -> NoDup (wanted_commods f) ->
    0 <= wanted_amount f -> received_of t c l <= wanted_amount f + tol;
  (* and no supplier has anything left that some consumer still wants *)
  dy_met : forall t s f g c, nth_error fs t = Some f -> offered_commod f = Some c ->
    nth_error fs s = Some g -> In c (wanted_commods g) -> eps < wanted_amount g ->
    offered_amount f - sent t l <= eps \/ wanted_amount g - received_of s c l <= eps \/ demand eps g - received s l <= eps }.
(** What was delivered is in the inventories, and the settings are as before. *)
Definition kept (fs : list fac) (l : list delivery) (fs' : list fac) : Prop :=
  length fs' = length fs /\ forall t f f', nth_error fs t = Some f -> nth_error fs' t = Some f' ->
    same_settings f f' /\ held f' == held f + received t l.

(** The rows of the Transactions table written during an exchange. *)
Definition transactions (ev : list call) : list row :=
  flat_map (fun c => match c with VTrade (ERecord _ r) => [r] | _ => [] end) ev.
(** Every delivery has its row, with the agents, the commodity and the next transaction id. *)
Definition recorded (mgr : nat -> Z) (id : Z) (l : list delivery) (ev : list call) : Prop :=
  Permutation (map (fun r => (tx_sender r, tx_receiver r, tx_commod r)) (transactions ev))
    (map (fun d => (mgr (dl_from d), mgr (dl_to d), dl_commod d)) l) /\
  map tx_id (transactions ev) = numbered id (length l).

(** A simulation that can take a step: the recipes exist, the facilities are set up and their inventories in order. *)
Definition ready (recipes : string -> option nat) (w : world) (fs : list fac) : Prop :=
  (forall n c, recipes n = Some c -> (c < length (w_comps w))%nat) /\
  forall t f, nth_error fs t = Some f -> set_up recipes f /\ in_order w f.

(** A KFacility multiplies its capacities after each step: [c] after [n] steps with factor [k]. *)
Fixpoint times (k : Q) (n : nat) (c : Q) : Q := match n with O => c | S n => times k n (c * k) end.
Definition later (n : nat) (f : fac) : fac :=
  match f with
  | FK k => FK (mkKf (k_in k) (k_out k) (k_recipe k) (times (k_fin k) n (k_in_cap k)) (times (k_fout k) n (k_out_cap k))
                     (k_cur k) (k_fin k) (k_fout k) (k_inv k))
  | x => x
  end.
(** A KFacility that goes on supplying. *)
Definition steady (f : fac) : Prop := match f with FK k => 0 < k_fout k | _ => True end.
(** The most a facility can receive in [n] steps. *)
Definition needs (eps tol : Q) (n : nat) (f : fac) : Q :=
  qsum (map (fun i => demand eps (later i f) + tol) (seq 0 n)).

(** What a supplier makes its product of: a recipe, or (a Source without recipe) whatever was asked for. *)
Definition product_recipe (f : fac) : option string :=
  match f with
  | FSource s => match so_recipe s with EmptyString => None | n => Some n end
  | FSink _ => None
  | FK k => Some (k_recipe k)
  end.
(** The material with number [i] is [q] of the composition number [c]. *)
Definition is_material (w : world) (i : nat) (q : Q) (c : nat) : Prop :=
  exists x, nth_error (w_res w) i = Some x /\ r_qty x = q /\ r_qual x = QMat c.
(** What was requested is a material of some composition, not known to the database. *)
Definition a_request (w : world) (o : rsrc) : Prop := exists r c,
  nth_error (w_res w) (rs_id o) = Some r /\ r_qual r = QMat c /\ (c < length (w_comps w))%nat /\ r_ctx r = false.
(** A KFacility that has given nothing yet in this step. *)
Definition full_capacity (f : fac) : Prop := match f with FK k => k_cur k = k_out_cap k | _ => True end.
