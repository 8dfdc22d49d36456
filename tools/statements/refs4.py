from refs1 import OBT
M=[]
def m(id,thm,edits,english,ref,pre=''): M.append(dict(id=id,thm=thm,edits=edits,english=english,ref=ref,pre=pre))
N1='''Lemma N1 : number (bs "1"). Proof. exists [], [49], [], []. split; [left; reflexivity|]. split; [right; exists 49, []; repeat split; try lia; constructor|]. repeat split; left; reflexivity. Qed.
'''
m('V01','C58_first_error',[('Tokenizer',"(b =? 9) || (b =? 13)","(b =? 9) || (b =? 12)")],'carriage return is not whitespace',
 '''intro H. destruct (H W64 [13] 0%nat (KUnexpected 13)) as [K _]; [str|c|cbn; lia|]. apply (K [49] (TNum [49])); [slice|].
 exists [13], [49], []. split; [repeat constructor; unfold ws_byte; lia|]. split; [constructor; exact N1|]. split; [constructor|reflexivity].''',N1)
m('V02','C17_never_back',[('Tokenizer',"let '(r, it'') := read_peek g pw offset byte it' in (Some r, it'')","let '(r, it'') := read_peek g pw offset byte it' in (Some r, match r with Err _ => BI (bi_bytes it'') 0 | _ => it'' end)")],
 'an error sends the tokenizer back to the start','''intro H. destruct (H false W64 (bs "1?") (BI (bs "1?") 1) CallNext) as [K _]; [slice|exists [CallNext]; reflexivity|]. vm_compute in K. lia.''')
m('V04','C59_limit_error_place',[('Parser',"else (Err (Error offset KRecursionLimitReached), s)","else (Err (Error 0 KRecursionLimitReached), s)")],
 'the recursion limit is reported at offset 0','''intro H. destruct (H W64 (Config false (Some 1) true) (bs "[[") 0%nat) as (n & w & b & x & L & K & _); [slice|c|]. injection L as <-. bad K.''')
m('V17','C29_cmp_str_consistent',[('StrModel',"    if has_escapes pw (js_info s) then\n      let? c := cmp_loop decoded_next chars_next","    if false then\n      let? c := cmp_loop decoded_next chars_next")],
 'the order against a str compares the source','''intro H. destruct (H W64 xe (bs "A") oe) as [_ K]; [apply utf8_valid_iff; c|]. assert (E := K ltac:(c)). bad E.''',OBT)
m('V18','C30_hash_exactly',[('StrModel',"    if has_escapes pw (js_info s) then\n      let? cs := js_decoded pw s in Ok (map utf8_encode cs ++ [[0xFF]])","    if negb (has_escapes pw (js_info s)) then\n      let? cs := js_decoded pw s in Ok (map utf8_encode cs ++ [[0xFF]])")],
 'strings with escapes are hashed by their source','''intro H. destruct (H W64 xe [65] oe) as [K1 K2]; [c|]. assert (N : ~ stored_escaped xe -> False).
 { intro Q. apply K2 in Q. bad Q. } apply N. intro Q. apply K1 in Q. bad Q.''',OBT)
m('V23','C92_escaping',[('StrModel',"if a + b <? 256 then Ok (a + b) else Fault FOverflow","if a + b <? 100 then Ok (a + b) else Fault FOverflow")],
 'the checked addition of a nibble and a letter overflows','''intro H. specialize (H W64 (JStr (CRaw (Borrowed [11])) 0) 6%nat). bad H.''')
m('V27','C46_parse_gets_the_literal',[('Tokenizer',"let! s := tlift (str_unchecked it start (bi_offset it)) in","let! s := tlift (str_unchecked it (match initial_state with INSign => start + 1 | _ => start end) (bi_offset it)) in")],
 'the sign of a number is lost','''intro H. destruct (H W64 [] (bs "-1") [] (list N) (fun x => Some x)) as (num & E & K & _).''' if 0 else '''intro H. destruct (H W64 [] (bs "-1") [] (list N) (fun x => x)) as (num & E & K & _); [str|constructor|constructor|exact N2|]. vm_compute in E. injection E as <-. bad K.''',
 '''Lemma N2 : number (bs "-1"). Proof. exists [45], [49], [], []. split; [right; reflexivity|]. split; [right; exists 49, []; repeat split; try lia; constructor|]. repeat split; left; reflexivity. Qed.
''')
m('V29','C84_default_config',[('Parser',"Definition config_new : parse_config := Config false (Some 128) true.","Definition config_new : parse_config := Config false (Some 256) true.")],'the default limit is 256','''intro H. destruct (H false W64 (repeat 91 129 ++ repeat 93 129) v0) as [K _]; [slice|]. destruct (K ltac:(c)) as [_ L]. apply L. c.''',
 'Definition v0 := Eval vm_compute in Nat.iter 128 (fun v => VArray [v]) (VArray []).\n')
m('V34','C76_built_strings',[('StrModel',"else if ch =? 0x0D then single 114","else if ch =? 0x0D then single 110")],
 'carriage return and line feed are escaped alike','''intro H. destruct (H W64 [10] [13] x1 x2 [92; 110] [92; 110]) as [K _]; [split; [str|left; c]|split; [str|left; c]|c|c|]. discriminate (K eq_refl).''',
 '''Definition x1 := Eval vm_compute in match js_from_str W64 [10] with Ok v => v | _ => JStr (CRaw (Borrowed [])) 0 end.
Definition x2 := Eval vm_compute in match js_from_str W64 [13] with Ok v => v | _ => JStr (CRaw (Borrowed [])) 0 end.
''')
