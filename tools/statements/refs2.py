from refs1 import M as M1, OBT
d={m['id']:m for m in M1}
M=[]
def fix(id,**k):
    x=dict(d[id]); x.update(k); M.append(x)
def m(id,thm,edits,english,ref,pre=''): M.append(dict(id=id,thm=thm,edits=edits,english=english,ref=ref,pre=pre))
fix('T19',ref=d['T19']['ref'].replace("unfold is_true in *; subst d; cbn in Hd; first [lia|discriminate Hd].","rewrite <- E in Hd; unfold digit in Hd; lia."))
fix('T20',edits=[('StrModel','match pw with W32 => 0x7FFFFFFF | W64 => 0x7FFFFFFFFFFFFFFF end.\n\n(** src/string.rs 600','match pw with W32 => 0x7FFFFFFF | W64 => 0x3FFFFFFF end.\n\n(** src/string.rs 600')],english='the 64-bit length mask has 30 bits',ref="intro H. destruct (H (JStr (CJson (Borrowed [65])) 0xC0000000) ya [10]) as (_ & _ & K & _). bad K.")
fix('T24',ref='''intro H. specialize (H W64 [12; 49]). destruct (value_from_json_bytes W64 [12; 49]) as [v| |] eqn:E; [|bad E|bad E].
 destruct (H v) as (cs & Hs & Ec & D); [slice|reflexivity|].
 assert (C : cs = [12; 49]).
 { symmetry. apply utf8_string_inj; [repeat constructor|exact Hs|exact Ec]. }
 subst cs. apply rfc_in_paired in D; [|intros (p & q & z & (d1 & d2 & -> & _) & E'); apply (f_equal (@length N)) in E'; rewrite !app_length in E'; cbn in E'; lia].
 assert (K : exists t, json_text false t (utf8_string [12; 49]) /\\ (true = true \\/ is_container t = true)) by (apply (grammar_iff config_default); [exact Hs|exact D]).
 destruct K as (t & (w1 & u & w2 & W1 & U & W2 & E1) & _). vm_compute in E1. destruct w1 as [|b w1].
 + inversion U; subst; try (cbn in E1; discriminate E1). all: match goal with N : number _ |- _ => destruct (number_first _ N) as (b0 & r0 & -> & Hb); cbn in E1; injection E1; intros; lia | _ => idtac end.
 + injection E1 as <- _. inversion W1; subst. unfold ws_byte in *. lia.''')
fix('T25',ref='''intro H. specialize (H false W64 config_default unit_delegate (bs "[1,1,1,1,1,1,1]") tt). destruct (c_parse_bytes false W64 config_default unit_delegate (bs "[1,1,1,1,1,1,1]") tt) as [r l] eqn:E. destruct H as (_ & H & _). apply (f_equal snd) in E. cbn [snd] in E. subst l. apply Nat.leb_le in H. bad H.''')
fix('T26',edits=d['T26']['edits']+[('LookModel',"  | [] => ((offset, read_integer_digit), [offset])","  | [] => ((offset, read_integer_digit), [])")],ref='''intro H. specialize (H false W64 [49] [49; 50] [CallNext]). destruct (c_tok_run false W64 (tokenizer_new [49]) [CallNext]) as [r l] eqn:E. vm_compute in E. injection E as <- <-.
 destruct H as (H & _); [|bad H]. intros p Hp. cbn in Hp. repeat (destruct Hp as [<-|Hp]; [reflexivity|]). destruct Hp.''')
fix('T28',ref=d['T28']['ref'].replace("assert (E : lines","assert (E : PropLines.lines"))
fix('T31',pre=d['T31']['pre']+"""
Lemma ox : obtainable W64 x0. Proof. right. exists [34]. split; [str|left; c]. Qed.
Lemma cx : constructible W64 (VString x0). Proof. split; constructor; exact ox. Qed.""",ref="""intro H. destruct (H W64 config_default (VString x0) (34 :: 92 :: 39 :: 34 :: nil)) as [_ K]; [exact cx|constructor; c|vm_compute; discriminate|].
 destruct K as (v' & E & _); [|bad E]. split; [split; [vm_compute; discriminate|left; reflexivity]|]. constructor. right. intros cs E. vm_compute in E. injection E as <-. constructor; [|constructor]. unfold latin1. repeat split; [| |lia]; intro Hin; vm_compute in Hin; repeat (destruct Hin as [Hin|Hin]; [discriminate Hin|]); destruct Hin.""")
m('T32','C93_calls_carry_text',[('ValueModel',"if pretty then wthen (w_write line_ending) (w_set_line_start true) else wret.","if pretty then wthen (w_write line_ending) (w_set_line_start true) else w_str [].")],
 'compact serialization hands over empty line endings','''intro H. destruct (H W64 (VArray [VNull])) as (calls & R & F); [split; repeat constructor|]. apply log_replays in R.
 match type of R with ?t = _ => assert (E : existsb (fun c => match c with CallStr [] => true | _ => false end) t = true) by c end.
 rewrite R in E. apply existsb_exists in E. destruct E as (c0 & I & E). rewrite Forall_forall in F. apply F in I. destruct c0 as [[|]|]; [apply I; reflexivity|discriminate E|discriminate E].''')
m('T33','C92_decoding',[('StrModel',"match str_slice (dec_source d) (offset + 7) (offset + 11) with","match str_slice (dec_source d) (offset + 6) (offset + 11) with")],
 'the second half of a surrogate pair is read one byte early','''intro H. destruct (H W64 xs os 1%nat) as [_ K]. apply K. c.''',
 '''Definition xs : json_string := Eval vm_compute in match string_from_json W64 (bs """\\ud83d\\ude39""") with Ok x => x | _ => JStr (CRaw (Borrowed [])) 0 end.
Lemma os : obtainable W64 xs. Proof. left. apply (parsed_string W64 xs (bs """\\ud83d\\ude39""")); [str|c]. Qed.''')
m('T34','C99_only_these_panics',[('ObjectModel',"OBJINS","")],'', '') if False else None
m('T35','C99_what_a_program_can_hold',[('ValueModel',"d_string := fun st s => (Ok (VString s), st);","d_string := fun st s => (Ok (VString (JStr (js_source s) 0)), st);")],
 'parsed strings lose their recorded length','''intro H. destruct (H W64) as (_ & K & _). destruct (K (JStr (CJson (Borrowed (bs "A"))) 0)) as [_ K2].
 assert (O : obtainable W64 (JStr (CJson (Borrowed (bs "A"))) 0)). { left. apply (parsed_bytes W64 _ (bs """A""") config_default (VString (JStr (CJson (Borrowed (bs "A"))) 0))); [slice|c|constructor]. }
 shelve.''') if False else None
m('T36','C98_nodes_are_the_lexemes',[('DocModel',"DOC","")],'','') if False else None
m('T37','C75_decoding_does_not_grow',[('StrModel',"if c =? 114 (* r *) then ret 0x0D it2","if c =? 114 (* r *) then ret 0x20AC it2")],
 '\\\\r decodes to a character of three bytes','''intro H. destruct (H W64 xr [0x20AC] orr) as (K & _); [c|]. vm_compute in K. lia.''',
 '''Definition xr : json_string := Eval vm_compute in match string_from_json W64 (bs """\\r""") with Ok x => x | _ => JStr (CRaw (Borrowed [])) 0 end.
Lemma orr : obtainable W64 xr. Proof. left. apply (parsed_string W64 xr (bs """\\r""")); [str|c]. Qed.''')
m('T38','C64_pretty_array',[('ValueModel',"wthen (match array' with [] => wret | _ => w_write [44%N] end)","wthen (match array' with [] => w_write [44%N] | _ => w_write [44%N] end)")],
 'a comma after the last element','''intro H. destruct (H W64 [32] [10] [VNull] (bs "[" ++ [10; 32] ++ bs "null" ++ [10] ++ bs "]")) as [_ K]; [split; repeat constructor| | |].
 3: { assert (E : to_json_pretty_custom W64 [32] [10] (VArray [VNull]) = Ok (bs "[" ++ [10; 32] ++ bs "null" ++ [10] ++ bs "]")); [|bad E]. apply K. exists [bs "null"]. split; [constructor; [c|constructor]|c]. }
 - repeat constructor; discriminate.
 - exists []. split; [reflexivity|constructor].''')
m('T39','C86_elsewhere',[('ValueModel',"    if b then Ok (Some ((k, v), fun e => e :: o'))","    if b then Ok (Some ((k, v), fun e => [e]))")],
 'storing through get_mut drops the entries after it','''intro H. shelve.''') if False else None
m('T40','C81_values',[('Tokenizer',"read_string_loop g pw (S (length (bi_bytes it))) start (info_none pw) it.","read_string_loop g pw (S (length (bi_bytes it))) start (match pw with W32 => 1 | W64 => 0 end) it.")],
 'on 32 bits the recorded length starts at 1','''intro H. destruct (H config_default (bs """A""")) as [K _]. assert (E := K ltac:(slice)). bad E.''')
m('T41','C87_conversions',[('StrModel',"else Ok (JStr (CJson value) (aj_info escaped)).","else Ok (JStr (CJson (Owned (any_str value))) (aj_info escaped)).")],
 'From<&str> copies text that needs no escapes','''intro H. destruct (H W64 (bs "A") x0) as (_ & _ & K & _). assert (E := K ltac:(c)). bad E.''',
 '''Definition x0 := Eval vm_compute in match js_from_str W64 (bs "A") with Ok v => v | _ => JStr (CRaw (Borrowed [])) 0 end.''')
