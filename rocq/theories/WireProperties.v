(** The bytes of transactions and of the other things that are signed (C95-C98). *)
From Coq Require Import String List Bool NArith ZArith Lia Sorting.Sorted.
From Coq Require Import ZifyBool ZifyNat ZifyN.
From Verif Require Import Prelude CodecModel CodecSpec CodecProofs WireModel WireSpec WireForm
  WireProofs WireTxProofs WireBridge.
Import ListNotations.
Open Scope string_scope.
Open Scope list_scope.
Open Scope N_scope.

(** *** Concrete transactions *)

Definition wx_fork (h : Z) : bool := (100 <=? h)%Z.
Fixpoint wx_fields (l : list (string * val)) : string -> val :=
  match l with
  | [] => fun _ => VUnit
  | (n, v) :: l' => set (wx_fields l') n v
  end.
Definition wx_tx (t : N) (l : list (string * val)) : tx := {| tx_type := t; tx_get := wx_fields l |}.
Definition wx_key : list N := 2 :: repeat 7 32.
Definition wx_wicc : list N := [87; 73; 67; 67].
Definition wx_wusd : list N := [87; 85; 83; 68].
Definition wx_base (h : Z) (u : userid) (fee : N) : list (string * val) :=
  [("nVersion", VInt 1); ("valid_height", VInt h); ("txUid", VUid u); ("fee_symbol", VBytes wx_wicc);
   ("llFees", VNum fee); ("signature", VBytes [1; 2; 3])].

(** A transaction that opens a debt position with two kinds of collateral; one that votes for a
    change of two parameters; one of median prices; one of two inline transactions with two
    signers; one that settles interest. *)
Definition wx_stake : tx :=
  wx_tx 21 (wx_base 500 (IdPub (PubBytes wx_key)) 1000 ++
    [("cdp_txid", VBytes (repeat 0 32));
     ("assets_to_stake", VList [VPair (VBytes [87; 71; 82; 84]) (VNum 300);
                                VPair (VBytes wx_wicc) (VNum 18446744073709551615)]);
     ("scoin_symbol", VBytes wx_wusd); ("scoins_to_mint", VNum 128)]).
Definition wx_proposal : tx :=
  wx_tx 70 (wx_base 500 (IdReg (300, 2)) 1000 ++
    [("proposal", VTag 1 (VPair (VNum 1200) (VPair (VNum 3)
       (VList [VPair (VNum 4) (VNum 77); VPair (VNum 9) (VNum 5000)]))))]).
Definition wx_prices (h : Z) : tx :=
  wx_tx 17 (wx_base h (IdReg (300, 2)) 0 ++
    [("median_prices", VList
       [VPair (VPair (VBytes [87; 71; 82; 84]) (VBytes wx_wusd)) (VNum 20000);
        VPair (VPair (VBytes wx_wicc) (VBytes wx_wusd)) (VNum 7)])]).
Definition wx_inline (sig : list N) : tx :=
  wx_tx 100 (wx_base 500 (IdReg (300, 2)) 1000 ++
    [("inline_transactions", VList
       [VPair (VNum 5) (VPair (VNum 6) (VPair (VList [VPair (VNum 8) (VNum 9)]) (VBytes [1; 2])));
        VPair (VNum 5) (VPair (VNum 7) (VPair (VList []) (VBytes [])))]);
     ("signatures", VList [VPair (VNum 8) (VBytes sig); VPair (VNum 3) (VBytes [4])])]).
Definition wx_settle (fee : N) : tx :=
  wx_tx 24 (wx_base 500 (IdReg (300, 2)) fee ++
    [("cdp_list", VList [VBytes (repeat 1 32); VBytes (repeat 2 32)])]).
Definition wx_clear (h : Z) : tx := wx_tx 50 (wx_base h (IdReg (3, 4)) 9).


(** Fields of a message, for the concrete cases. *)
Definition wx_read (s : list N) (n : string) : option val :=
  match read_tx wx_fork s with
  | Got t [] => Some (tx_get t n)
  | _ => None
  end.

(** ** C95: what is sent is what is received *)

(** A transaction of any of the types, without invalid public keys and negative numbers, can be
    written; whoever reads the bytes, whatever follows them, gets a transaction of the same
    type with the same value in every field, with the same id, and exactly what followed. *)
Theorem c95_transaction_round_trip r3 t :
  tx_value t -> tx_keys_valid t -> tx_nonneg t ->
  exists s, write_tx r3 t = Some s /\ forall rest, exists u,
    read_tx r3 (s ++ rest) = Got u rest /\ same_tx t u /\
    preimage r3 u = preimage r3 t /\ preimage r3 t <> None.
Proof.
  intros Hv Hk Hn. destruct (proper_value r3 t (conj Hv (conj Hk Hn))) as (Fv & Fk & Fn).
  destruct (tx_round_trip r3 t Fv Fk Fn) as (s & W & R). exists s.
  split; [exact W|]. intros rest. destruct (R rest) as (u & Ru & S). exists u.
  split; [exact Ru|]. split; [now apply (same_iff r3)|].
  destruct (write_total r3 t Fv Fk) as (_ & (p & P)). split.
  - symmetry. apply preimage_same; [exact Fv|exact (same_tx_value r3 t u S Fv)|].
    now apply same_tx_content.
  - rewrite P. discriminate.
Qed.
Print Assumptions c95_transaction_round_trip.

Example c95_transaction_round_trip_example :
  forallb (properb wx_fork) [wx_stake; wx_proposal; wx_prices 50; wx_prices 150; wx_inline [9; 9];
                             wx_settle 77; wx_clear 12] = true /\
  (exists s, write_tx wx_fork wx_stake = Some s /\ length s = 111%nat /\
     wx_read s "assets_to_stake" = Some (tx_get wx_stake "assets_to_stake")) /\
  (exists s, write_tx wx_fork wx_proposal = Some s /\
     wx_read s "proposal" = Some (tx_get wx_proposal "proposal")) /\
  (exists s s', write_tx wx_fork (wx_prices 50) = Some s /\
     write_tx wx_fork (wx_prices 150) = Some s' /\ length s <> length s' /\
     wx_read s "median_prices" = wx_read s' "median_prices" /\
     wx_read s "median_prices" = Some (tx_get (wx_prices 50) "median_prices")).
Proof.
  split; [vm_compute; reflexivity|].
  split; [eexists; repeat split; vm_compute; reflexivity|].
  split; [eexists; repeat split; vm_compute; reflexivity|].
  do 2 eexists. split; [vm_compute; reflexivity|]. split; [vm_compute; reflexivity|].
  split; [vm_compute; discriminate|]. split; vm_compute; reflexivity.
Qed.

(** Two transactions that are not the same are never written alike, nor is one the beginning of
    the other: in a sequence of transactions (a block) every one can be told from the next. *)
Theorem c95_transactions_told_apart r3 a b s s' x y :
  tx_value a -> tx_keys_valid a -> tx_nonneg a ->
  tx_value b -> tx_keys_valid b -> tx_nonneg b ->
  write_tx r3 a = Some s -> write_tx r3 b = Some s' -> s ++ x = s' ++ y ->
  same_tx a b /\ s = s' /\ x = y.
Proof.
  intros A1 A2 A3 B1 B2 B3 Wa Wb E.
  destruct (c95_transaction_round_trip r3 a A1 A2 A3) as (sa & Wa' & Ra).
  destruct (c95_transaction_round_trip r3 b B1 B2 B3) as (sb & Wb' & Rb).
  rewrite Wa in Wa'. rewrite Wb in Wb'. injection Wa' as <-. injection Wb' as <-.
  destruct (Ra x) as (u & Ru & (T1 & Su) & _). destruct (Rb y) as (v & Rv & (T2 & Sv) & _).
  rewrite E, Rv in Ru. injection Ru as <- <-.
  split; [|split; [now apply app_inv_tail in E|reflexivity]].
  split; [congruence|]. intros n Hn. rewrite (Su n Hn). symmetry. apply Sv. congruence.
Qed.
Print Assumptions c95_transactions_told_apart.

Example c95_transactions_told_apart_example : exists s s',
  write_tx wx_fork (wx_clear 12) = Some s /\ write_tx wx_fork (wx_settle 77) = Some s' /\
  match read_tx wx_fork (s ++ s') with Got t r => (tx_type t =? 50) = true /\ r = s' | _ => False end.
Proof. do 2 eexists. repeat split; vm_compute; reflexivity. Qed.

(** ** C96: what a signature covers *)

(** Two transactions have the same id, and so the same signatures hold for them, exactly if they
    are of the same type, agree in every field but their signatures (and, for the settlement of
    interest, the fees), and name the same additional signers in the same order.  What is hashed
    is compared, not the hashes: the hash function is not modelled. *)
Theorem c96_signed_content r3 a b :
  tx_value a -> tx_keys_valid a -> tx_nonneg a ->
  tx_value b -> tx_keys_valid b -> tx_nonneg b ->
  (preimage r3 a = preimage r3 b <-> same_content settle_fees a b).
Proof.
  intros A1 A2 A3 B1 B2 B3. destruct (proper_value r3 a (conj A1 (conj A2 A3))) as (Fa & Ka & Na).
  destruct (proper_value r3 b (conj B1 (conj B2 B3))) as (Fb & Kb & Nb).
  rewrite (content_iff r3) by exact Fa. split; [now apply preimage_inj|now apply preimage_same].
Qed.
Print Assumptions c96_signed_content.

(** The signatures of the additional signers do not matter; who they are and what is to be done
    does. *)
Example c96_signed_content_example :
  preimage wx_fork (wx_inline [9; 9]) = preimage wx_fork (wx_inline [8; 7; 6]) /\
  preimage wx_fork (wx_inline [9; 9]) <> preimage wx_fork (wx_clear 500) /\
  preimage wx_fork (wx_clear 500) <> preimage wx_fork (wx_clear 501) /\
  preimage wx_fork (wx_clear 500) <> None.
Proof. repeat split; vm_compute; (reflexivity || discriminate). Qed.

(** For every other type: everything is covered. *)
Theorem c96_everything_signed r3 a b :
  tx_value a -> tx_keys_valid a -> tx_nonneg a ->
  tx_value b -> tx_keys_valid b -> tx_nonneg b -> tx_type a <> 24 ->
  (preimage r3 a = preimage r3 b <-> same_content nothing a b).
Proof.
  intros A1 A2 A3 B1 B2 B3 T. rewrite (c96_signed_content r3) by assumption.
  unfold same_content, settle_fees, nothing. intuition.
Qed.
Print Assumptions c96_everything_signed.

Example c96_everything_signed_example :
  properb wx_fork wx_stake = true /\ tx_type wx_stake <> 24 /\
  preimage wx_fork wx_stake <> preimage wx_fork (wx_tx 21 (("scoins_to_mint", VNum 129) ::
    wx_base 500 (IdPub (PubBytes wx_key)) 1000 ++
    [("cdp_txid", VBytes (repeat 0 32)); ("assets_to_stake", tx_get wx_stake "assets_to_stake");
     ("scoin_symbol", VBytes wx_wusd)])).
Proof. repeat split; vm_compute; (reflexivity || discriminate). Qed.

(** The fees of a transaction that settles interest are not covered: a signed one can be relayed
    with any other fees, and carries the same id. *)
Theorem c96_settlement_fees_refuted : exists a b,
  proper (STx a) /\ proper (STx b) /\
  tx_get a "signature" = tx_get b "signature" /\ tx_get a "llFees" <> tx_get b "llFees" /\
  preimage wx_fork a = preimage wx_fork b.
Proof.
  exists (wx_settle 77), (wx_settle 1000000000).
  split; [apply (checked wx_fork); vm_compute; reflexivity|].
  split; [apply (checked wx_fork); vm_compute; reflexivity|].
  repeat split; vm_compute; (reflexivity || discriminate).
Qed.
Print Assumptions c96_settlement_fees_refuted.

(** Nor are heights told apart when one of them is negative: two messages that are read as
    transactions with the heights -1 and 127 have the same id. *)
Definition wx_negative : list N := [50; 1; 142; 254; 254; 254; 127; 2; 3; 4; 4; 87; 73; 67; 67; 9; 0].
Definition wx_positive : list N := [50; 1; 127; 2; 3; 4; 4; 87; 73; 67; 67; 9; 0].
Theorem c96_negative_height_refuted : exists s s' t u,
  bytes s /\ bytes s' /\ read_tx wx_fork s = Got t [] /\ read_tx wx_fork s' = Got u [] /\
  tx_get t "valid_height" = VInt (-1) /\ tx_get u "valid_height" = VInt 127 /\
  preimage wx_fork t = preimage wx_fork u /\ preimage wx_fork t <> None.
Proof.
  exists wx_negative, wx_positive. do 2 eexists.
  split; [apply bytesb_spec; reflexivity|]. split; [apply bytesb_spec; reflexivity|].
  split; [reflexivity|]. split; [reflexivity|]. repeat split; vm_compute; (reflexivity || discriminate).
Qed.
Print Assumptions c96_negative_height_refuted.

(** ** C97: messages that are received *)

(** Whatever is read has values of the types of its fields; unless it contains an invalid public
    key it can be hashed and written; and unless it contains a negative number the node that
    receives what was written gets the same transaction, with the same id. *)
Theorem c97_received r3 s t r : bytes s -> read_tx r3 s = Got t r ->
  tx_value t /\ bytes r /\
  (tx_keys_valid t ->
   preimage r3 t <> None /\
   exists s', write_tx r3 t = Some s' /\
     (tx_nonneg t -> forall rest, exists u, read_tx r3 (s' ++ rest) = Got u rest /\
        same_tx t u /\ preimage r3 u = preimage r3 t)).
Proof.
  intros Hs R. destruct (tx_received r3 s t r Hs R) as (Fv & Hr).
  assert (Hv : tx_value t) by now apply (value_iff r3). split; [exact Hv|].
  split; [exact Hr|]. intros Hk. assert (Fk : carried_keys r3 t) by now apply (keys_iff r3).
  destruct (write_total r3 t Fv Fk) as ((s' & W) & (p & P)).
  split; [rewrite P; discriminate|]. exists s'. split; [exact W|]. intros Hn rest.
  destruct (c95_transaction_round_trip r3 t Hv Hk Hn) as (s2 & W2 & R2).
  rewrite W in W2. injection W2 as <-. destruct (R2 rest) as (u & Ru & S & Q & _).
  exists u. auto.
Qed.
Print Assumptions c97_received.

Example c97_received_example : bytes wx_positive /\
  match read_tx wx_fork wx_positive with
  | Got t [] => properb wx_fork t = true /\ write_tx wx_fork t = Some wx_positive /\
                tx_get t "txUid" = VUid (IdReg (3, 4))
  | _ => False
  end.
Proof.
  split; [apply bytesb_spec; reflexivity|]. vm_compute. repeat split; reflexivity.
Qed.

(** A message with an invalid public key is read, and then can neither be hashed nor written:
    the assertion of the writer of public keys fails and ends the node. *)
Definition wx_bad_key : list N := [2; 1; 5; 33] ++ repeat 9 33 ++ [0; 8; 0].
Theorem c97_invalid_key_refuted : exists s t, bytes s /\ read_tx wx_fork s = Got t [] /\
  preimage wx_fork t = None /\ write_tx wx_fork t = None.
Proof.
  exists wx_bad_key. eexists. split; [apply bytesb_spec; reflexivity|].
  split; [reflexivity|]. split; vm_compute; reflexivity.
Qed.
Print Assumptions c97_invalid_key_refuted.

(** A message with a negative height is relayed as another one. *)
Theorem c97_negative_height_refuted : exists s t s' u, bytes s /\ read_tx wx_fork s = Got t [] /\
  tx_keys_valid t /\ write_tx wx_fork t = Some s' /\ read_tx wx_fork s' = Got u [] /\
  tx_get t "valid_height" <> tx_get u "valid_height".
Proof.
  exists wx_negative. eexists. exists wx_positive. eexists.
  split; [apply bytesb_spec; reflexivity|]. split; [reflexivity|].
  split; [apply (checked_keys wx_fork); vm_compute; reflexivity|].
  split; [vm_compute; reflexivity|]. split; [reflexivity|]. vm_compute. discriminate.
Qed.
Print Assumptions c97_negative_height_refuted.

(** Different messages are read as the same transaction: the id of a transaction does not fix
    the bytes of the block that contains it. *)
Definition wx_deploy (b : N) : list N := [14; 1; 5; 2; 3; 4; 0; 8; 1; b; 0; 0; 0; 0].
Theorem c97_one_transaction_one_message_refuted : exists s s' t u, bytes s /\ bytes s' /\ s <> s' /\
  read_tx wx_fork s = Got t [] /\ read_tx wx_fork s' = Got u [] /\ same_tx t u.
Proof.
  exists (wx_deploy 1), (wx_deploy 2). do 2 eexists.
  split; [apply bytesb_spec; reflexivity|]. split; [apply bytesb_spec; reflexivity|].
  split; [vm_compute; discriminate|]. split; [reflexivity|]. split; [reflexivity|].
  split; reflexivity.
Qed.
Print Assumptions c97_one_transaction_one_message_refuted.

(** Reading a number of too many bytes is undefined behaviour: a signed shift out of range. *)
Theorem c97_defined_refuted : exists s, bytes s /\ read_tx wx_fork s = Undef.
Proof.
  exists [50; 255; 255; 255; 255; 255; 0]. split; [apply bytesb_spec; reflexivity|reflexivity].
Qed.
Print Assumptions c97_defined_refuted.

(** ** C98: a signature is for one thing *)

(** Transactions, block headers, messages of the finality protocol, signed texts and consents to
    the use of shared outputs are all signed with the keys of accounts.  No two different things
    that can be signed are hashed from the same bytes: a signature obtained for one of them is
    never a signature of another. *)
Theorem c98_one_meaning r3 x y : proper x -> proper y ->
  hash_input r3 x = hash_input r3 y -> same_thing x y.
Proof.
  intros Hx Hy E. apply (same_form_iff r3); [exact Hx|].
  apply signed_same; [now apply proper_iff|now apply proper_iff|exact E].
Qed.
Print Assumptions c98_one_meaning.

Definition wx_hash (n : N) : list N := repeat n 32.
Definition wx_things : list signable :=
  [STx (wx_clear 48); SBlock 1 (wx_hash 50) (wx_hash 3) 1600000000 5 77 1000 10;
   SVote 1 (wx_hash 50) 77 (300, 2) (wx_hash 3); SVote 2 (wx_hash 50) 77 (300, 2) (wx_hash 3);
   SText [104; 105]; SShared (wx_hash 34) 1 (repeat 8 20) [1; 2]].
Example c98_one_meaning_example :
  Forall (fun x => proper x /\ hash_input wx_fork x <> None) wx_things /\
  NoDup (map (hash_input wx_fork) wx_things).
Proof.
  split.
  - repeat (apply Forall_cons || apply Forall_nil).
    all: split; [|vm_compute; discriminate].
    1: apply (checked wx_fork); vm_compute; reflexivity.
    all: cbn; unfold regid_ok; cbn; repeat split; try reflexivity; try lia; auto.
    all: repeat constructor.
  - vm_compute. repeat constructor; cbn; intuition discriminate.
Qed.

(** Without the rule that blocks have version 1 this would not hold: there is a header with
    another version that is hashed from the same bytes as a transaction. *)
Definition wx_strange : tx :=
  wx_tx 50 [("nVersion", VInt 1); ("valid_height", VInt 0); ("txUid", VUid (IdReg (3, 4)));
            ("fee_symbol", VBytes (repeat 65 84)); ("llFees", VNum 9); ("signature", VBytes [])].
Theorem c98_block_version_refuted : exists version prev merkle time nonce height fee rate,
  version < 4294967296 /\ version <> 1 /\ length prev = 32%nat /\ length merkle = 32%nat /\
  time < 4294967296 /\ nonce < 4294967296 /\ height < 4294967296 /\ rate < 4294967296 /\
  fee < 18446744073709551616 /\ proper (STx wx_strange) /\
  hash_input wx_fork (SBlock version prev merkle time nonce height fee rate) =
  hash_input wx_fork (STx wx_strange).
Proof.
  exists (1 + 256 * 50 + 16777216 * 2), (3 :: 4 :: 84 :: repeat 65 29), (repeat 65 32),
    1094795585, 1094795585, 1094795585, 4702111234474983745, 155271489.
  do 9 (split; [lia || reflexivity|]). split; [apply (checked wx_fork)|]; vm_compute; reflexivity.
Qed.
Print Assumptions c98_block_version_refuted.
