(** Specification vocabulary for what a block says to the contract: the keys and amounts its
    indices stand for, and the inputs of the hash chains over them. *)
From Coq Require Import ZArith List Bool Lia.
Import ListNotations.
From Verif Require Import Base Env Circuit SparseMT SparseMTSpec Data DataSpec Contract ContractSpec AggCircuit AggCircuitSpec.
Open Scope Z_scope.

Section spec.
  Context {hs : Hashes} {G : Curve}.

  (** the keys of a signer list; a missing signer stands for the identity *)
  Definition signers_are (c : contract) (l : list (option Z)) (keys : list pt) : Prop :=
    Forall2 (fun o k => match o with None => k = pzero | Some i => key_of c (Z.to_nat i) = Some k end) l keys.
  (** the (key, amount) entries of a list of deposits or withdrawals *)
  Definition entries_are (c : contract) (l : list (Z * u64)) (es : list (pt * Z)) : Prop :=
    Forall2 (fun ia ka => key_of c (Z.to_nat (fst ia)) = Some (fst ka) /\ zval (snd ia) = snd ka) l es.

  (** the byte strings hashed, in order, by the chain over [l] that starts at [acc] *)
  Fixpoint chain_inputs (acc : F) (l : list (list Z)) : list (list Z) :=
    match l with
    | [] => []
    | b :: r => (field_bytes acc ++ b) :: chain_inputs (sha_field (field_bytes acc ++ b)) r
    end.
  (** two different strings among the given ones with one digest, or one whose digest is the
      starting value of all chains *)
  Definition sha_event (l : list (list Z)) : Prop :=
    (exists a b, In a l /\ In b l /\ a <> b /\ sha_field a = sha_field b) \/
    (exists a, In a l /\ sha_field a = Fzero).
  Definition amount_bytes (ka : pt * Z) : list Z := pt_bytes (fst ka) ++ bytes_le 8 (snd ka).

  (** * What a run of the aggregator's circuit did *)
  Definition run_signers (contract : pt) (final : F) (xs : list agg_inputsV) : list pt :=
    map (fun x => if is_applied contract final x then x_sender x else pzero) xs.
  Definition run_deposits (contract : pt) (xs : list agg_inputsV) : list (pt * Z) :=
    flat_map (fun x => if by_contract contract x
                       then map (fun u => (v_pk u, zval (v_amount u))) (realV (v_outputs (x_tx x))) else []) xs.
  (** applied or not *)
  Definition run_withdrawals (contract : pt) (xs : list agg_inputsV) : list (pt * Z) :=
    flat_map (fun x => if withdrawn contract x =? 0 then [] else [(x_sender x, withdrawn contract x)]) xs.
  Definition sum_of (es : list (pt * Z)) : Z := zsum (map snd es).

  (** the state in which the proof of an epoch starts: no transaction yet, empty hash chains; the
      coin root, the transaction root that was signed and the signer root are given *)
  Definition begins (z : zstate) : Prop :=
    z_step z = Fzero /\ z_tx z = merkle_root (empty_contents txV_cfg) /\
    z_signer_acc z = Fzero /\ z_deposit z = Fzero /\ z_withdrawal z = Fzero.
  (** * Value over blocks *)
  (** what a block pays in and out *)
  Definition paid_in (b : block) : Z := zsum (map (fun ia => zval (snd ia)) (b_deposits b)).
  Definition paid_out (b : block) : Z := zsum (map (fun ia => zval (snd ia)) (b_withdrawals b)).
  (** The transactions [xs] were proved against the coins [cu]: the proof starts an epoch at their
      root, ends in what the contract [c] derives from [b], and no two hash inputs that occur in it
      collide; [cu'] are the coins afterwards. *)
  Definition epoch_proved (contract : pt) (c : Contract.contract) (cu : contents utxoV_cfg) (b : block)
      (xs : list agg_inputsV) (cu' : contents utxoV_cfg) : Prop :=
    exists z bs z',
      ivc contract false (z_list z) bs (z_list z') /\ begins z /\ derive_public_inputs c b = Ok (z_list z') /\
      xs = concat bs /\ z_utxo z = merkle_root cu /\
      (let ws := flat_map (coin_writes contract (tx_tree_root b)) xs in
       ~ collides utxoV_cfg utxo_encV cu ws /\ cu' = written utxoV_cfg cu ws) /\
      (forall deps, entries_are c (b_deposits b) deps ->
       ~ sha_event (chain_inputs Fzero (map amount_bytes deps) ++ chain_inputs Fzero (map amount_bytes (run_deposits contract xs)))) /\
      (forall wds, entries_are c (b_withdrawals b) wds ->
       ~ sha_event (chain_inputs Fzero (map amount_bytes wds) ++ chain_inputs Fzero (map amount_bytes (run_withdrawals contract xs)))).
  (** a sequence of such epochs, each against the contract's registry at the time *)
  Inductive epochs (contract : pt) : contents utxoV_cfg -> list (block * list agg_inputsV) -> contents utxoV_cfg -> Prop :=
  | epochs_nil cu : epochs contract cu [] cu
  | epochs_cons c cu b xs cu1 l cu' :
      epoch_proved contract c cu b xs cu1 -> epochs contract cu1 l cu' -> epochs contract cu ((b, xs) :: l) cu'.
  (** coins of ordinary users: 64-bit amounts, not owned by the contract *)
  Definition ordinary (contract : pt) (cu : contents utxoV_cfg) : Prop :=
    forall u, In u (live cu) -> zval (v_amount u) < 2 ^ 64 /\ v_pk u <> contract.
  (** every transaction that pays the contract was signed by its sender (or sent by the contract) *)
  Definition all_payers_signed (contract : pt) (final : F) (xs : list agg_inputsV) : Prop :=
    forall x, In x xs -> withdrawn contract x <> 0 -> is_applied contract final x = true.
End spec.
