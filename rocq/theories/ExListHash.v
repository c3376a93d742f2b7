(** Lists whose keys have the same hash share their items: the hypothesis of C24 (distinct hashes)
    is needed. *)
From Verif Require Import Base SipHash Hashing HashingProofs Fs Shard Router RouterPure Wpc Spec FileRep RowOps
  Compact Inv ShardOps Split Insert Open Merge Create Store Limits StoreRefine Kv Lists Queues Api Hist KvSpec
  HistInv KeySpace PlainSpec Plain Check Script ThmStore ExStore ListSpec ListRep ListProg ListHist ThmList ExList.

(** A hash function under which all keys collide; the code allows no such choice, SipHash with a
    64-bit result merely makes collisions of two list keys unlikely. *)
Definition same_hash_cfg : config := Config (fun _ => (0, 1)) 1000 300 0 16 true false.
Theorem C24_distinct_hashes_are_needed : happens
  [ECall (CList la (LSet ia [x31])) (Ok (YSet CreatedNew));
   ECall (CList lb (LGet ia)) (Ok (YOpt (Some [x31])));
   ECall (CList lb (LSet ia [x32])) (Ok (YSet (PrevValue [x31])));
   ECall (CList la (LGet ia)) (Ok (YOpt (Some [x32])));
   ECall (CList lb LLen) (Ok (YNum 0))].
Proof.
  eapply (happens_by same_hash_cfg [xl la (LSet ia [x31]); xl lb (LGet ia); xl lb (LSet ia [x32]); xl la (LGet ia); xl lb LLen]);
    [by vm_compute|no_reopens|by vm_cast_no_check (eq_refl true)|match goal with |- _ = ?es => by vm_cast_no_check (eq_refl es) end].
Qed.
