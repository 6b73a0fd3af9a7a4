(** Operations on nested dictionaries: misc_utils.py 372-391, 535-547, 570-585,
    600-606, and their uses in main.py 199-210 and experiments.py 219-229,
    3618-3631, 3649-3689.  Trees are the [node]s of ConfigTree.v (no sharing
    between branches). *)
From Coq Require Import List ZArith Lia Bool Arith String.
From Verif Require Import Base PyMonad ConfigTree.
Import ListNotations.
Local Open Scope string_scope.
Local Open Scope nat_scope.
Local Open Scope list_scope.

(** * deep_merge, misc_utils.py 372-382 *)

(** [result] starts as a shallow copy of [dict1]: the lists in it are the very
    lists of [dict1], so [result[key].extend(value)] also extends the list held by
    [dict1].  The pair is (result, dict1 after the call); [dict2] is only read
    (the two arguments are taken to share nothing). *)
Fixpoint merge_loop (dict2 : list (key * node)) (result dict1 : list (key * node))
  : list (key * node) * list (key * node) :=
  match dict2 with
  | [] => (result, dict1)
  | (k, value) :: t =>
    match dget k result with
    | Some (LList a) =>
      match value with
      | LList b => merge_loop t (dset k (LList (a ++ b)) result)
                                (match dget k dict1 with
                                 | Some _ => dset k (LList (a ++ b)) dict1
                                 | None => dict1
                                 end)
      | _ => merge_loop t (dset k (LList [LList a; value]) result) dict1
      end
    | Some old => merge_loop t (dset k (LList [old; value]) result) dict1
    | None => merge_loop t (dset k value result) dict1
    end
  end.
Definition deep_merge (dict1 dict2 : list (key * node)) := merge_loop dict2 dict1 dict1.

(** * deep_get, misc_utils.py 384-391 *)

(** The values yielded, in order.  The walk does not go below a matching key. *)
Fixpoint deep_get (key : ConfigTree.key) (value : node) : list node :=
  match value with
  | Leaf _ => []
  | Dict l => flat_map (fun kv => if key_eqb (fst kv) key then [snd kv] else deep_get key (snd kv)) l
  | LList l =>
    (fix go (i : nat) (l : list node) : list node :=
       match l with
       | [] => []
       | v :: t => (if key_eqb (KI i) key then [v] else deep_get key v) ++ go (S i) t
       end) 0 l
  end.

(** * update_recursively, misc_utils.py 535-547 *)

(** [d.get] and [d.keys] fail with AttributeError when [d] is not a dictionary. *)
Fixpoint update_recursively (overwrite : bool) (u d : node) {struct u} : res node :=
  match u with
  | Dict ul =>
    (fix go (ul : list (key * node)) (d : node) {struct ul} : res node :=
       match ul with
       | [] => Ok d
       | (k, v) :: t =>
         match v with
         | Dict _ =>
           match d with
           | Dict l =>
             do d1 <- update_recursively overwrite v
                        (match dget k l with Some x => x | None => Dict [] end) ;
             go t (Dict (dset k d1 l))
           | _ => Raise EAttr
           end
         | _ =>
           if overwrite then do d1 <- set_item d k v ; go t d1
           else match d with
                | Dict l => go t (Dict (match dget k l with Some _ => l | None => dset k v l end))
                | _ => Raise EAttr
                end
         end
       end) ul d
  | _ => Raise EAttr
  end.

(** * deep_update and deep_updates, misc_utils.py 570-585 *)

(** The dictionary after the call.  [isinstance(dict_val, list)] looks at the
    dictionaries directly inside the list only.  With [overwrite] off a matching
    key is treated like any other. *)
Fixpoint deep_update (overwrite : bool) (key : ConfigTree.key) (val : node) (d : node) : node :=
  match d with
  | Dict l =>
    Dict (map (fun kv =>
      (fst kv,
       if key_eqb (fst kv) key && overwrite then val
       else match snd kv with
            | Dict l' => deep_update overwrite key val (snd kv)
            | LList vs => LList (map (fun v => match v with
                                               | Dict _ => deep_update overwrite key val v
                                               | _ => v
                                               end) vs)
            | Leaf x => Leaf x
            end)) l)
  | _ => d
  end.
Definition deep_updates (overwrite : bool) (main_dict : node) (update_dict : list (key * node)) : node :=
  fold_left (fun d kv => deep_update overwrite (fst kv) (snd kv) d) update_dict main_dict.

(** * deep_apply, misc_utils.py 600-606 *)

(** Lists are handed to [func] whole when they are values of a dictionary. *)
Fixpoint deep_apply (func : node -> node) (ob : node) : res node :=
  match ob with
  | Dict l =>
    do l' <- (fix go (l : list (key * node)) : res (list (key * node)) :=
                match l with
                | [] => Ok []
                | (k, v) :: t =>
                  do v' <- match v with Dict _ => deep_apply func v | _ => Ok (func v) end ;
                  do t' <- go t ; Ok ((k, v') :: t')
                end) l ;
    Ok (Dict l')
  | LList l =>
    do l' <- (fix go (l : list node) : res (list node) :=
                match l with
                | [] => Ok []
                | v :: t =>
                  do v' <- match v with Dict _ => deep_apply func v | _ => Ok (func v) end ;
                  do t' <- go t ; Ok (v' :: t')
                end) l ;
    Ok (LList l')
  | Leaf _ => Raise EType
  end.

(** * Uses *)

(** main.py 210: the settings given on the command line are written into the
    configuration. *)
Definition apply_settings (config : node) (settings : list (key * node)) : node :=
  deep_updates true config settings.

(** experiments.py 3624-3630, resuming an experiment: hardware settings of the
    loaded configuration are replaced by those of the new one. *)
Definition hardware_keys : list key := [KS "n_workers"; KS "n_threads"; KS "device"; KS "log_level"].
Fixpoint take_settings (keys : list key) (new loaded : node) : res node :=
  match keys with
  | [] => Ok loaded
  | k :: t =>
    match deep_get k new with
    | [] => Raise EIndex
    | v :: _ => take_settings t new (deep_update true k v loaded)
    end
  end.
Definition resume_config (new loaded : node) : res node := take_settings hardware_keys new loaded.

(** experiments.py 3649-3653 and 3687-3689: the value of the first experiment is
    remembered, the key is set to [False] everywhere while the outputs are
    created, and the remembered value is then written back everywhere.
    [first] is [config['experiments'][0][key]]. *)
Definition disable_setting (key : ConfigTree.key) (config : node) : node :=
  deep_update true key (Leaf (LBool false)) config.
Definition restore_setting (key : ConfigTree.key) (first config : node) : node :=
  deep_updates true config [(key, first)].

(** experiments.py 219-229: an existing time stamp is kept. *)
Definition stamp_config (now : node) (config : node) : node :=
  match deep_get (KS "datetime") config with
  | [] => match config with Dict l => Dict (dset (KS "datetime") now l) | _ => config end
  | _ => deep_update false (KS "datetime") now config
  end.
