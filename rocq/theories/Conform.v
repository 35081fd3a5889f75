(** The test suite of the repository (/repo/tests/src, and the two unit tests in the crates),
    run against the model. These are checks of the model, not properties. Each test reads a
    text and compares with a value, then writes the value and compares with the tree of
    a text; comparison of trees leaves out white space between elements, as xmltree does when
    it reads the expected text. The text form is read by [read_text] (SpecMarkup.v). *)
From Verif Require Import Base Num Types Names Validate Builders Setters Config Xml Encode Parse Top SpecMarkup.

Fixpoint no_space (n : xml) : xml :=
  match n with Elem t a l => Elem t a (filter at_top (map no_space l)) | _ => n end.
Definition tree (s : string) : xml :=
  match read_text s with Ok (Elem _ _ [n]) => n | _ => Misc end.
(** convert_case on the names of the tests *)
Fixpoint upper (s : string) : string :=
  match s with EmptyString => s | String c r => String (if (97 <=? byte c) && (byte c <=? 122) then chr (byte c - 32) else c) (upper r) end.
Fixpoint lower (s : string) : string :=
  match s with EmptyString => s | String c r => String (if (65 <=? byte c) && (byte c <=? 90) then chr (byte c + 32) else c) (lower r) end.
Definition cased_as (f : id_format) (s : string) : string :=
  match f, s with
  | Snake, _ => lower s
  | Constant, _ => upper s
  | _, String c r => String c (lower r)
  | _, _ => s
  end.
Definition configured (l : list (string * string)) : config :=
  fold_left (fun c o => match update c (fst o) (snd o) with Ok c' => c' | _ => c end) l config_default.
(** tests/src/lib.rs:14-48 *)
Definition run_test {A} (parse : xml -> res A) (encode : A -> res xml) (value : res A) (input output : string) : Prop :=
  match value with
  | Ok x => parse (tree input) = Ok x /\ match encode x with Ok n => no_space n = no_space (tree output) | _ => False end
  | _ => False
  end.
Ltac run := vm_compute; split; reflexivity.
Definition pcfg : pconfig := default_parse_config.

(** tests/src/access.rs *)
Example access_test_1 : run_test (access_parse_node) (fun x => Ok (access_encode x)) (Ok (ReadOnly))
  "<access>read-only</access>"%string
  "<access>read-only</access>"%string.
Proof. run. Qed.
Example access_test_2 : run_test (access_parse_node) (fun x => Ok (access_encode x)) (Ok (ReadWrite))
  "<access>read-write</access>"%string
  "<access>read-write</access>"%string.
Proof. run. Qed.
Example access_test_3 : run_test (access_parse_node) (fun x => Ok (access_encode x)) (Ok (ReadWriteOnce))
  "<access>read-writeOnce</access>"%string
  "<access>read-writeOnce</access>"%string.
Proof. run. Qed.
Example access_test_4 : run_test (access_parse_node) (fun x => Ok (access_encode x)) (Ok (WriteOnly))
  "<access>write-only</access>"%string
  "<access>write-only</access>"%string.
Proof. run. Qed.
Example access_test_5 : run_test (access_parse_node) (fun x => Ok (access_encode x)) (Ok (WriteOnce))
  "<access>writeOnce</access>"%string
  "<access>writeOnce</access>"%string.
Proof. run. Qed.

(** tests/src/addressblock.rs *)
Example addressblock_test : run_test (ab_parse pcfg) (fun x => Ok (ab_encode (configured [("address_block_offset", "Dec"); ("address_block_size", "UpperHex8")]) x)) (ab_build Strict (chain block_set block_new [with_block_offset 0; with_block_size 0xF00; with_block_usage Registers; with_block_protection None]))
  "<addressBlock>
            <offset>0x0</offset>
            <size>0xF00</size>
            <usage>registers</usage>
        </addressBlock>"%string
  "<addressBlock>
            <offset>0</offset>
            <size>0x00000F00</size>
            <usage>registers</usage>
        </addressBlock>"%string.
Proof. run. Qed.

(** tests/src/cpu.rs *)
Example cpu_test : run_test (cpu_parse pcfg) (fun x => Ok (cpu_encode x)) (cpu_build Strict (chain cpu_set cpu_new [with_cpu_name "EFM32JG12B500F512GM48"; with_cpu_revision "5.1.1"; with_cpu_endian Little; with_cpu_mpu_present true; with_cpu_fpu_present true; with_cpu_nvic_priority_bits 8; with_cpu_has_vendor_systick false]))
  "
                <cpu>
                    <name>EFM32JG12B500F512GM48</name>  
                    <revision>5.1.1</revision>
                    <endian>little</endian>
                    <mpuPresent>true</mpuPresent>
                    <fpuPresent>true</fpuPresent>
                    <nvicPrioBits>8</nvicPrioBits>
                    <vendorSystickConfig>false</vendorSystickConfig>
                </cpu>
            "%string
  "
                <cpu>
                    <name>EFM32JG12B500F512GM48</name>  
                    <revision>5.1.1</revision>
                    <endian>little</endian>
                    <mpuPresent>true</mpuPresent>
                    <fpuPresent>true</fpuPresent>
                    <nvicPrioBits>8</nvicPrioBits>
                    <vendorSystickConfig>false</vendorSystickConfig>
                </cpu>
            "%string.
Proof. run. Qed.

(** tests/src/dimelement.rs *)
Example dimelement_test_1 : run_test (de_parse pcfg) (de_encode Debug cased_as config_default) (de_build Strict (chain dim_set dim_new [with_dim_dim 2; with_dim_dim_increment 4; with_dim_dim_index (Some ["10"; "20"])]))
  "<dimElement>
            <dim>2</dim>
            <dimIncrement>0x4</dimIncrement>
            <dimIndex>10,20</dimIndex>
        </dimElement>
        "%string
  "<dimElement>
            <dim>2</dim>
            <dimIncrement>0x4</dimIncrement>
            <dimIndex>10,20</dimIndex>
        </dimElement>
        "%string.
Proof. run. Qed.
Example dimelement_test_2 : run_test (de_parse pcfg) (de_encode Debug cased_as config_default) (de_build Strict (chain dim_set dim_new [with_dim_dim 3; with_dim_dim_increment 4; with_dim_dim_index (Some ["3"; "4"; "5"])]))
  "<dimElement>
            <dim>3</dim>
            <dimIncrement>0x4</dimIncrement>
            <dimIndex>3-5</dimIndex>
        </dimElement>
        "%string
  "<dimElement>
            <dim>3</dim>
            <dimIncrement>0x4</dimIncrement>
            <dimIndex>3-5</dimIndex>
        </dimElement>
        "%string.
Proof. run. Qed.
Example dimelement_test_3 : run_test (de_parse pcfg) (de_encode Debug cased_as config_default) (de_build Strict (chain dim_set dim_new [with_dim_dim 3; with_dim_dim_increment 4; with_dim_dim_index (Some ["3"; "5"; "4"])]))
  "<dimElement>
            <dim>3</dim>
            <dimIncrement>0x4</dimIncrement>
            <dimIndex>3,5,4</dimIndex>
        </dimElement>
        "%string
  "<dimElement>
            <dim>3</dim>
            <dimIncrement>0x4</dimIncrement>
            <dimIndex>3,5,4</dimIndex>
        </dimElement>
        "%string.
Proof. run. Qed.
Example dimelement_test_4 : run_test (de_parse pcfg) (de_encode Debug cased_as config_default) (de_build Strict (chain dim_set dim_new [with_dim_dim 1; with_dim_dim_increment 0; with_dim_dim_index (Some ["3"])]))
  "<dimElement>
            <dim>1</dim>
            <dimIncrement>0x0</dimIncrement>
            <dimIndex>3-3</dimIndex>
        </dimElement>
        "%string
  "<dimElement>
            <dim>1</dim>
            <dimIncrement>0x0</dimIncrement>
            <dimIndex>3-3</dimIndex>
        </dimElement>
        "%string.
Proof. run. Qed.
Example dimelement_test_5 : run_test (de_parse pcfg) (de_encode Debug cased_as (configured [("dim_dim", "UpperHex"); ("dim_increment", "LowerHex")])) (de_build Strict (chain dim_set dim_new [with_dim_dim 14; with_dim_dim_increment 15]))
  "<dimElement>
            <dim>14</dim>
            <dimIncrement>0xF</dimIncrement>
        </dimElement>
        "%string
  "<dimElement>
            <dim>0xE</dim>
            <dimIncrement>0xf</dimIncrement>
        </dimElement>
        "%string.
Proof. run. Qed.

(** tests/src/endian.rs *)
Example endian_test_1 : run_test (endian_parse_node) (fun x => Ok (endian_encode x)) (Ok (Little))
  "<endian>little</endian>"%string
  "<endian>little</endian>"%string.
Proof. run. Qed.
Example endian_test_2 : run_test (endian_parse_node) (fun x => Ok (endian_encode x)) (Ok (Big))
  "<endian>big</endian>"%string
  "<endian>big</endian>"%string.
Proof. run. Qed.
Example endian_test_3 : run_test (endian_parse_node) (fun x => Ok (endian_encode x)) (Ok (Selectable))
  "<endian>selectable</endian>"%string
  "<endian>selectable</endian>"%string.
Proof. run. Qed.
Example endian_test_4 : run_test (endian_parse_node) (fun x => Ok (endian_encode x)) (Ok (OtherEndian))
  "<endian>other</endian>"%string
  "<endian>other</endian>"%string.
Proof. run. Qed.

(** tests/src/enumeratedvalue.rs *)
Example enumeratedvalue_test_1 : run_test (ev_parse pcfg) (fun x => Ok (ev_encode cased_as config_default x)) (ev_build Strict (chain value_set value_new [with_value_name "WS0"; with_value_description (Some "Zero wait-states inserted in fetch or read transfers"); with_value_value (Some 0)]))
  "
            <enumeratedValue>
                <name>WS0</name>
                <description>Zero wait-states inserted in fetch or read transfers</description>
                <value>0</value>
            </enumeratedValue>
        "%string
  "
            <enumeratedValue>
                <name>WS0</name>
                <description>Zero wait-states inserted in fetch or read transfers</description>
                <value>0</value>
            </enumeratedValue>
        "%string.
Proof. run. Qed.
Example enumeratedvalue_test_2 : run_test (ev_parse pcfg) (fun x => Ok (ev_encode cased_as (configured [("enumerated_value_name", "Pascal"); ("enumerated_value_value", "Bin")]) x)) (ev_build Strict (chain value_set value_new [with_value_name "WS0"; with_value_description (Some "Zero wait-states inserted in fetch or read transfers"); with_value_value (Some 0)]))
  "
            <enumeratedValue>
                <name>WS0</name>
                <description>Zero wait-states inserted in fetch or read transfers</description>
                <value>0</value>
            </enumeratedValue>
        "%string
  "
            <enumeratedValue>
                <name>Ws0</name>
                <description>Zero wait-states inserted in fetch or read transfers</description>
                <value>0b0</value>
            </enumeratedValue>
        "%string.
Proof. run. Qed.

(** tests/src/field.rs *)
Example field_test_1 : run_test (field_parse Debug pcfg) (field_encode Debug cased_as config_default) (let* f := field_build Strict (chain field_set field_new [with_field_name "MODE%s"; with_field_derived_from (Some "other_field"); with_field_bit_range (BitRange 24 2 BRT_OffsetWidth)]) in let* d := de_build Strict (chain dim_set dim_new [with_dim_dim 2; with_dim_dim_increment 4; with_dim_dim_index (Some ["10"; "20"])]) in Ok (Array f d))
  "
        <field derivedFrom=""other_field"">
          <dim>2</dim>
          <dimIncrement>0x4</dimIncrement>
          <dimIndex>10,20</dimIndex>
          <name>MODE%s</name>
          <bitOffset>24</bitOffset>
          <bitWidth>2</bitWidth>
        </field>
        "%string
  "
        <field derivedFrom=""other_field"">
          <dim>2</dim>
          <dimIncrement>0x4</dimIncrement>
          <dimIndex>10,20</dimIndex>
          <name>MODE%s</name>
          <bitOffset>24</bitOffset>
          <bitWidth>2</bitWidth>
        </field>
        "%string.
Proof. run. Qed.
Example field_test_2 : run_test (field_info_parse Debug pcfg) (field_info_encode Debug cased_as (configured [("field_name", "Snake"); ("field_bit_range", "MsbLsb")])) (field_build Strict (chain field_set field_new [with_field_name "MODE"; with_field_derived_from (Some "other_field"); with_field_bit_range (BitRange 24 2 BRT_OffsetWidth)]))
  "
        <field derivedFrom=""other_field"">
          <name>MODE</name>
          <bitOffset>24</bitOffset>
          <bitWidth>2</bitWidth>
        </field>
        "%string
  "
        <field derivedFrom=""other_field"">
          <name>mode</name>
          <lsb>24</lsb>
          <msb>25</msb>
        </field>
        "%string.
Proof. run. Qed.
Example field_test_3 : run_test (field_info_parse Debug pcfg) (field_info_encode Debug cased_as config_default) (let* v := ev_build Strict (chain value_set value_new [with_value_name "WS0"; with_value_description (Some "Zero wait-states inserted in fetch or read transfers"); with_value_value (Some 0); with_value_is_default None]) in let* vs := evs_build Strict (chain values_set values_new [with_values_values [v]]) in field_build Strict (chain field_set field_new [with_field_name "MODE"; with_field_description (Some "Read Mode"); with_field_bit_range (BitRange 24 2 BRT_OffsetWidth); with_field_access (Some ReadWrite); with_field_enumerated_values [vs]]))
  "
        <field>
          <name>MODE</name>
          <description>Read Mode</description>
          <bitOffset>24</bitOffset>
          <bitWidth>2</bitWidth>
          <access>read-write</access>
          <enumeratedValues>
            <enumeratedValue>
              <name>WS0</name>
              <description>Zero wait-states inserted in fetch or read transfers</description>
              <value>0</value>
            </enumeratedValue>
          </enumeratedValues>
        </field>
        "%string
  "
        <field>
          <name>MODE</name>
          <description>Read Mode</description>
          <bitOffset>24</bitOffset>
          <bitWidth>2</bitWidth>
          <access>read-write</access>
          <enumeratedValues>
            <enumeratedValue>
              <name>WS0</name>
              <description>Zero wait-states inserted in fetch or read transfers</description>
              <value>0</value>
            </enumeratedValue>
          </enumeratedValues>
        </field>
        "%string.
Proof. run. Qed.
Example field_test_4 : run_test (field_info_parse Debug pcfg) (field_info_encode Debug cased_as config_default) (field_build Strict (chain field_set field_new [with_field_name "MODE"; with_field_derived_from (Some "other_field"); with_field_bit_range (BitRange 24 2 BRT_OffsetWidth)]))
  "
        <field derivedFrom=""other_field"">
          <name>MODE</name>
          <bitOffset>24</bitOffset>
          <bitWidth>2</bitWidth>
        </field>
        "%string
  "
        <field derivedFrom=""other_field"">
          <name>MODE</name>
          <bitOffset>24</bitOffset>
          <bitWidth>2</bitWidth>
        </field>
        "%string.
Proof. run. Qed.

(** tests/src/interrupt.rs *)
Example interrupt_test_1 : run_test (it_parse pcfg) (fun x => Ok (it_encode cased_as config_default x)) (it_build Strict (chain interrupt_set interrupt_new [with_interrupt_name "test"; with_interrupt_description (Some "description"); with_interrupt_value 14]))
  "
            <interrupt>
                <name>test</name>
                <description>description</description>
                <value>14</value>
            </interrupt>"%string
  "
            <interrupt>
                <name>test</name>
                <description>description</description>
                <value>14</value>
            </interrupt>"%string.
Proof. run. Qed.
Example interrupt_test_2 : run_test (it_parse pcfg) (fun x => Ok (it_encode cased_as (configured [("interrupt_name", "Constant")]) x)) (it_build Strict (chain interrupt_set interrupt_new [with_interrupt_name "test"; with_interrupt_description (Some "description"); with_interrupt_value 14]))
  "
            <interrupt>
                <name>test</name>
                <description>description</description>
                <value>14</value>
            </interrupt>"%string
  "
            <interrupt>
                <name>TEST</name>
                <description>description</description>
                <value>14</value>
            </interrupt>"%string.
Proof. run. Qed.

(** tests/src/modifiedwritevalues.rs *)
Example modifiedwritevalues_test : run_test (mwv_parse_node) (fun x => Ok (mwv_encode x)) (Ok (OneToToggle))
  "<modifiedWriteValues>oneToToggle</modifiedWriteValues>"%string
  "<modifiedWriteValues>oneToToggle</modifiedWriteValues>"%string.
Proof. run. Qed.

(** tests/src/register.rs *)
Example register_test_1 : run_test (register_parse Debug pcfg) (register_encode Debug cased_as config_default) (let* r := register_build Strict (chain register_set register_new [with_register_name "MODE%s"; with_register_address_offset 8]) in let* d := de_build Strict (chain dim_set dim_new [with_dim_dim 2; with_dim_dim_increment 4; with_dim_dim_index (Some ["10"; "20"])]) in Ok (Array r d))
  "
        <register>
          <dim>2</dim>
          <dimIncrement>0x4</dimIncrement>
          <dimIndex>10,20</dimIndex>
          <name>MODE%s</name>
          <addressOffset>0x8</addressOffset>
        </register>
        "%string
  "
        <register>
          <dim>2</dim>
          <dimIncrement>0x4</dimIncrement>
          <dimIndex>10,20</dimIndex>
          <name>MODE%s</name>
          <addressOffset>0x8</addressOffset>
        </register>
        "%string.
Proof. run. Qed.
Example register_test_2 : run_test (register_info_parse Debug pcfg) (register_info_encode Debug cased_as config_default) (let* f := field_build Strict (chain field_set field_new [with_field_name "WREN"; with_field_description (Some "Enable Write/Erase Controller"); with_field_bit_range (BitRange 0 1 BRT_OffsetWidth); with_field_access (Some ReadWrite)]) in
  register_build Strict (chain register_set register_new [with_register_name "WRITECTRL"; with_register_alternate_group (Some "alternate_group"); with_register_alternate_register (Some "alternate_register"); with_register_derived_from (Some "derived_from"); with_register_description (Some "Write Control Register"); with_register_address_offset 8; with_register_size (Some 32); with_register_access (Some ReadWrite); with_register_reset_value (Some 0); with_register_reset_mask (Some 0x23); with_register_fields (Some [Single f]); with_register_modified_write_values (Some OneToToggle)]))
  "
        <register derivedFrom=""derived_from"">
            <name>WRITECTRL</name>
            <description>Write Control Register</description>
            <alternateGroup>alternate_group</alternateGroup>
            <alternateRegister>alternate_register</alternateRegister>
            <addressOffset>0x8</addressOffset>
            <size>0x20</size>
            <access>read-write</access>
            <resetValue>0x00000000</resetValue>
            <resetMask>0x00000023</resetMask>
            <modifiedWriteValues>oneToToggle</modifiedWriteValues>
            <fields>
                <field>
                    <name>WREN</name>
                    <description>Enable Write/Erase Controller</description>
                    <bitOffset>0</bitOffset>
                    <bitWidth>1</bitWidth>
                    <access>read-write</access>
                </field>
            </fields>
        </register>
        "%string
  "
        <register derivedFrom=""derived_from"">
            <name>WRITECTRL</name>
            <description>Write Control Register</description>
            <alternateGroup>alternate_group</alternateGroup>
            <alternateRegister>alternate_register</alternateRegister>
            <addressOffset>0x8</addressOffset>
            <size>0x20</size>
            <access>read-write</access>
            <resetValue>0x00000000</resetValue>
            <resetMask>0x00000023</resetMask>
            <modifiedWriteValues>oneToToggle</modifiedWriteValues>
            <fields>
                <field>
                    <name>WREN</name>
                    <description>Enable Write/Erase Controller</description>
                    <bitOffset>0</bitOffset>
                    <bitWidth>1</bitWidth>
                    <access>read-write</access>
                </field>
            </fields>
        </register>
        "%string.
Proof. run. Qed.
Example register_test_3 : run_test (register_info_parse Debug pcfg) (register_info_encode Debug cased_as (configured [("register_name", "Snake"); ("register_address_offset", "UpperHex"); ("register_size", "Dec"); ("register_reset_value", "LowerHex16"); ("register_reset_mask", "UpperHex16"); ("field_bit_range", "BitRange")])) (let* f := field_build Strict (chain field_set field_new [with_field_name "WREN"; with_field_description (Some "Enable Write/Erase Controller"); with_field_bit_range (BitRange 0 1 BRT_OffsetWidth); with_field_access (Some ReadWrite)]) in
  register_build Strict (chain register_set register_new [with_register_name "WRITECTRL"; with_register_alternate_group (Some "alternate_group"); with_register_alternate_register (Some "alternate_register"); with_register_derived_from (Some "derived_from"); with_register_description (Some "Write Control Register"); with_register_address_offset 12; with_register_size (Some 32); with_register_access (Some ReadWrite); with_register_reset_value (Some 0xFEDCBA); with_register_reset_mask (Some 0xFFFFFFFF); with_register_fields (Some [Single f]); with_register_modified_write_values (Some OneToToggle)]))
  "
        <register derivedFrom=""derived_from"">
            <name>WRITECTRL</name>
            <description>Write Control Register</description>
            <alternateGroup>alternate_group</alternateGroup>
            <alternateRegister>alternate_register</alternateRegister>
            <addressOffset>0xC</addressOffset>
            <size>0x20</size>
            <access>read-write</access>
            <resetValue>0xFEDCBA</resetValue>
            <resetMask>0xFFFFFFFF</resetMask>
            <modifiedWriteValues>oneToToggle</modifiedWriteValues>
            <fields>
                <field>
                    <name>WREN</name>
                    <description>Enable Write/Erase Controller</description>
                    <bitOffset>0</bitOffset>
                    <bitWidth>1</bitWidth>
                    <access>read-write</access>
                </field>
            </fields>
        </register>
        "%string
  "
        <register derivedFrom=""derived_from"">
            <name>writectrl</name>
            <description>Write Control Register</description>
            <alternateGroup>alternate_group</alternateGroup>
            <alternateRegister>alternate_register</alternateRegister>
            <addressOffset>0xC</addressOffset>
            <size>32</size>
            <access>read-write</access>
            <resetValue>0x00fedcba</resetValue>
            <resetMask>0xFFFFFFFF</resetMask>
            <modifiedWriteValues>oneToToggle</modifiedWriteValues>
            <fields>
                <field>
                    <name>WREN</name>
                    <description>Enable Write/Erase Controller</description>
                    <bitRange>[0:0]</bitRange>
                    <access>read-write</access>
                </field>
            </fields>
        </register>
        "%string.
Proof. run. Qed.

(** tests/src/usage.rs *)
Example usage_test_1 : run_test (usage_parse_node) (fun x => Ok (usage_encode x)) (Ok (URead))
  "<usage>read</usage>"%string
  "<usage>read</usage>"%string.
Proof. run. Qed.
Example usage_test_2 : run_test (usage_parse_node) (fun x => Ok (usage_encode x)) (Ok (UWrite))
  "<usage>write</usage>"%string
  "<usage>write</usage>"%string.
Proof. run. Qed.
Example usage_test_3 : run_test (usage_parse_node) (fun x => Ok (usage_encode x)) (Ok (UReadWrite))
  "<usage>read-write</usage>"%string
  "<usage>read-write</usage>"%string.
Proof. run. Qed.

(** tests/src/writeconstraint.rs *)
Example writeconstraint_test_1 : run_test (wc_parse) (fun x => Ok (wc_encode x)) (Ok (WriteAsRead true))
  "<writeConstraint><writeAsRead>true</writeAsRead></writeConstraint>"%string
  "<writeConstraint><writeAsRead>true</writeAsRead></writeConstraint>"%string.
Proof. run. Qed.
Example writeconstraint_test_2 : run_test (wc_parse) (fun x => Ok (wc_encode x)) (Ok (UseEnumeratedValues true))
  "<writeConstraint><useEnumeratedValues>true</useEnumeratedValues></writeConstraint>"%string
  "<writeConstraint><useEnumeratedValues>true</useEnumeratedValues></writeConstraint>"%string.
Proof. run. Qed.
Example writeconstraint_test_3 : run_test (wc_parse) (fun x => Ok (wc_encode x)) (Ok (WcRange 1 10))
  "<writeConstraint><range><minimum>1</minimum><maximum>10</maximum></range></writeConstraint>"%string
  "<writeConstraint><range><minimum>1</minimum><maximum>10</maximum></range></writeConstraint>"%string.
Proof. run. Qed.

(** Tests that the repository keeps but has switched off (tests/src/bitrange.rs,
    enumeratedvalues.rs, registerproperties.rs; written for an older interface). *)
Example bitrange_test_1 : run_test (bit_range_parse Debug) (fun b => let* l := bit_range_encode Debug config_default b in Ok (Elem "fake" [] l)) (Ok (BitRange 16 4 BRT_BitRange))
  "
            <fake><bitRange>[19:16]</bitRange></fake>
        "%string
  "
            <fake><bitRange>[19:16]</bitRange></fake>
        "%string.
Proof. run. Qed.
Example bitrange_test_2 : run_test (bit_range_parse Debug) (fun b => let* l := bit_range_encode Debug config_default b in Ok (Elem "fake" [] l)) (Ok (BitRange 16 4 BRT_OffsetWidth))
  "
            <fake><bitOffset>16</bitOffset><bitWidth>4</bitWidth></fake>
        "%string
  "
            <fake><bitOffset>16</bitOffset><bitWidth>4</bitWidth></fake>
        "%string.
Proof. run. Qed.
Example bitrange_test_3 : run_test (bit_range_parse Debug) (fun b => let* l := bit_range_encode Debug config_default b in Ok (Elem "fake" [] l)) (Ok (BitRange 16 4 BRT_MsbLsb))
  "
            <fake><lsb>16</lsb><msb>19</msb></fake>
        "%string
  "
            <fake><lsb>16</lsb><msb>19</msb></fake>
        "%string.
Proof. run. Qed.
(** The size is written in hexadecimal since. *)
Example registerproperties_test : run_test (rp_parse pcfg) (fun p => Ok (Elem "mock" [] (rp_encode config_default p))) (Ok (RegProps (Some 64) (Some ReadOnly) None (Some 0x11223344) (Some 0xFFFFFFFF)))
  "
        <mock>
            <size>64</size>
            <access>read-only</access>
            <resetValue>0x11223344</resetValue>
            <resetMask>0xFFFFFFFF</resetMask>
        </mock>
    "%string
  "
        <mock>
            <size>0x40</size>
            <access>read-only</access>
            <resetValue>0x11223344</resetValue>
            <resetMask>0xFFFFFFFF</resetMask>
        </mock>
    "%string.
Proof. run. Qed.
(** tests/src/enumeratedvalues.rs:62-95. *)
Definition with_value (contents : string) : xml :=
  tree ("<enumeratedValues><enumeratedValue><name>WS0</name><description>Zero wait-states inserted in fetch or read transfers</description><value>0</value></enumeratedValue>"
    ++ contents ++ "</enumeratedValues>")%string.
Example valid_children_test :
  evs_parse pcfg (tree "<enumeratedValues></enumeratedValues>") = Err EEvsEmpty /\
  forallb (fun s => match evs_parse pcfg (with_value s) with Ok _ => true | _ => false end)
    ["<name>foo</name>"; "<headerEnumName>foo</headerEnumName>"; "<usage>read</usage>"]%string = true /\
  evs_parse pcfg (with_value "<enumerateValue></enumerateValue>") = Err (ENotExpectedTag "enumeratedValue") /\
  evs_parse pcfg (with_value "<enumeratedValues></enumeratedValues>") = Err (ENotExpectedTag "enumeratedValue").
Proof. repeat apply conj; vm_compute; reflexivity. Qed.

(** svd-rs/src/registerproperties.rs:159-185 *)
Example check_reset_value_test :
  let check size value mask := check_reset_value size value mask Strict in
  check None None None = Ok tt /\ check (Some 8) None None = Ok tt /\ check (Some 8) None (Some 0xff) = Ok tt /\
  check (Some 32) (Some 0xfaceface) None = Ok tt /\ check (Some 32) (Some 0xfaceface) (Some 0xffffffff) = Ok tt /\
  check (Some 8) None (Some 0x100) = Err (EMaskTooLarge 0x100 8) /\
  check (Some 1) (Some 0x02) None = Err (EValueTooLarge 2 1) /\
  check (Some 8) (Some 0x80) (Some 0x01) = Err (EMaskConflict 0x80 1).
Proof. repeat apply conj; vm_compute; reflexivity. Qed.
(** svd-parser/src/lib.rs:300-312 *)
Example trim_utf8_bom_test :
  let bom := String (chr 239) (String (chr 187) (String (chr 191) "")) in
  trim_utf8_bom (bom ++ "xyz") = "xyz"%string /\ trim_utf8_bom "xyz" = "xyz"%string.
Proof. split; vm_compute; reflexivity. Qed.

(** tests/src/bad_svd.rs:3-16 *)
Definition arm_sample_faulty : string :=
"<?xml version=""1.0"" encoding=""utf-8""?>

<!-- File naming: <vendor>_<part/series name>.svd -->

<!--
  Copyright (C) 2012 ARM Limited. All rights reserved.

  Purpose: System Viewer Description (SVD) Example (Schema Version 1.0)
           This is a description of a none-existent and incomplete device
           for demonstration purposes only.
 -->
 
<device schemaVersion=""1.0"" xmlns:xs=""http://www.w3.org/2001/XMLSchema-instance"" xs:noNamespaceSchemaLocation=""CMSIS-SVD_Schema_1_0.xsd"" >
  <name>ARMCM3xxx</name>                                          <!-- name of part or part series -->
  <version>1.0</version>                                          <!-- version of this description -->
  <description>ARM 32-bit Cortex-M3 Microcontroller based device, CPU clock up to 80MHz, etc. </description>
  <addressUnitBits>8</addressUnitBits>                            <!-- byte addressable memory -->
  <width>32</width>                                               <!-- bus width is 32 bits -->
  <!-- default settings implicitly inherited by subsequent sections -->
  <size>32</size>                                                 <!-- this is the default size (number of bits) of all peripherals
                                                                       and register that do not define ""size"" themselves -->
  <access>read-write</access>                                     <!-- default access permission for all subsequent registers -->
  <resetValue>0x00000000</resetValue>                             <!-- by default all bits of the registers are initialized to 0 on reset -->
  <resetMask>0xFFFFFFFF</resetMask>                               <!-- by default all 32Bits of the registers are used -->

  <peripherals>
    <!-- Timer 0 -->
    <peripheral>
      <name>TIMER0</name>
      <version>1.0</version>
      <description>32 Timer / Counter, counting up or down from different sources</description>
      <groupName>TIMER</groupName>
      <baseAddress>0x40010000</baseAddress>
      <size>32</size>
      <access>read-write</access>

      <addressBlock>
        <offset>0</offset>
        <size>0x100</size>
        <usage>registers</usage>
      </addressBlock>

      <interrupt>
        <name>TIMER0</name>
        <value>0</value>
      </interrupt>

      <registers>
      <!-- CR: Control Register -->
        <register>
          <name>CR</name>
          <description>Control Register</description>
          <addressOffset>0x00</addressOffset>
          <size>32</size>
          <access>read-write</access>
          <resetValue>0x00000000</resetValue>
          <resetMask>0x1337F7F</resetMask>

          <fields>
            <!-- EN: Enable -->
            <field>
              <name>EN</name>
              <description>Enable</description>
              <bitRange>[0:0]</bitRange>
              <access>read-write</access>
              <enumeratedValues>
                <enumeratedValue>
                  <name>Disable</name>
                  <description>Timer is disabled and does not operate</description>
                  <value>0</value>
                </enumeratedValue>
                <enumeratedValue>
                  <name>Enable</name>
                  <description>Timer is enabled and can operate</description>
                  <value>1</value>
                </enumeratedValue>
              </enumeratedValues>
	      <modifiedWriteValues>oneToFail</modifiedWriteValues>
            </field>

            <!-- RST: Reset -->
            <field>
              <name>RST</name>
              <description>Reset Timer</description>
              <bitRange>[1:1]</bitRange>
              <access>write-only</access>
              <enumeratedValues>
                <enumeratedValue>
                  <name>Reserved</name>
                  <description>Write as ZERO if necessary</description>
                  <value>0</value>
                </enumeratedValue>
                <enumeratedValue>
                  <name>Reset_Timer</name>
                  <description>Reset the Timer</description>
                  <value>1</value>
                </enumeratedValue>
              </enumeratedValues>
            </field>

            <!-- CNT: Counting Direction -->
            <field>
              <name>CNT</name>
              <description>Counting direction</description>
              <bitRange>[3:2]</bitRange>
              <access>read-write</access>
              <enumeratedValues>
                <enumeratedValue>
                  <name>Count_UP</name>
                  <description>Timer Counts UO and wraps, if no STOP condition is set</description>
                  <value>0</value>
                </enumeratedValue>
                <enumeratedValue>
                  <name>Count_DOWN</name>
                  <description>Timer Counts DOWN and wraps, if no STOP condition is set</description>
                  <value>1</value>
                </enumeratedValue>
                <enumeratedValue>
                  <name>Toggle</name>
                  <description>Timer Counts up to MAX, then DOWN to ZERO, if no STOP condition is set</description>
                  <value>2</value>
                </enumeratedValue>
              </enumeratedValues>
            </field>

            <!-- MODE: Operation Mode -->
            <field>
              <name>MODE</name>
              <description>Operation Mode</description>
              <bitRange>[6:4]</bitRange>
              <access>read-write</access>
              <enumeratedValues>
                <enumeratedValue>
                  <name>Continous</name>
                  <description>Timer runs continously</description>
                  <value>0</value>
                </enumeratedValue>
                <enumeratedValue>
                  <name>Single_ZERO_MAX</name>
                  <description>Timer counts to 0x00 or 0xFFFFFFFF (depending on CNT) and stops</description>
                  <value>1</value>
                </enumeratedValue>
                <enumeratedValue>
                  <name>Single_MATCH</name>
                  <description>Timer counts to the Value of MATCH Register and stops</description>
                  <value>2</value>
                </enumeratedValue>
                <enumeratedValue>
                  <name>Reload_ZERO_MAX</name>
                  <description>Timer counts to 0x00 or 0xFFFFFFFF (depending on CNT), loads the RELOAD Value and continues</description>
                  <value>3</value>
                </enumeratedValue>
                <enumeratedValue>
                  <name>Reload_MATCH</name>
                  <description>Timer counts to the Value of MATCH Register, loads the RELOAD Value and continues</description>
                  <value>4</value>
                </enumeratedValue>
              </enumeratedValues>
            </field>

            <!-- PSC: Use Prescaler -->
            <field>
              <name>PSC</name>
              <description>Use Prescaler</description>
              <bitRange>[7:7]</bitRange>
              <access>read-write</access>
              <enumeratedValues>
                <enumeratedValue>
                  <name>Disabled</name>
                  <description>Prescaler is not used</description>
                  <value>0</value>
                </enumeratedValue>
                <enumeratedValue>
                  <name>Enabled</name>
                  <description>Prescaler is used as divider</description>
                  <value>1</value>
                </enumeratedValue>
              </enumeratedValues>
            </field>

            <!-- CNTSRC: Timer / Counter Soruce Divider -->
            <field>
              <name>CNTSRC</name>
              <description>Timer / Counter Source Divider</description>
              <bitRange>[11:8]</bitRange>
              <access>read-write</access>
              <enumeratedValues>
                <enumeratedValue>
                  <name>CAP_SRC</name>
                  <description>Capture Source is used directly</description>
                  <value>0</value>
                </enumeratedValue>
                <enumeratedValue>
                  <name>CAP_SRC_div2</name>
                  <description>Capture Source is divided by 2</description>
                  <value>1</value>
                </enumeratedValue>
                <enumeratedValue>
                  <name>CAP_SRC_div4</name>
                  <description>Capture Source is divided by 4</description>
                  <value>2</value>
                </enumeratedValue>
                <enumeratedValue>
                  <name>CAP_SRC_div8</name>
                  <description>Capture Source is divided by 8</description>
                  <value>3</value>
                </enumeratedValue>
                <enumeratedValue>
                  <name>CAP_SRC_div16</name>
                  <description>Capture Source is divided by 16</description>
                  <value>4</value>
                </enumeratedValue>
                <enumeratedValue>
                  <name>CAP_SRC_div32</name>
                  <description>Capture Source is divided by 32</description>
                  <value>5</value>
                </enumeratedValue>
                <enumeratedValue>
                  <name>CAP_SRC_div64</name>
                  <description>Capture Source is divided by 64</description>
                  <value>6</value>
                </enumeratedValue>
                <enumeratedValue>
                  <name>CAP_SRC_div128</name>
                  <description>Capture Source is divided by 128</description>
                  <value>7</value>
                </enumeratedValue>
                <enumeratedValue>
                  <name>CAP_SRC_div256</name>
                  <description>Capture Source is divided by 256</description>
                  <value>8</value>
                </enumeratedValue>
              </enumeratedValues>
            </field>

            <!-- CAPSRC: Timer / COunter Capture Source -->
            <field>
              <name>CAPSRC</name>
              <description>Timer / Counter Capture Source</description>
              <bitRange>[15:12]</bitRange>
              <access>read-write</access>
              <enumeratedValues>
                <enumeratedValue>
                  <name>CClk</name>
                  <description>Core Clock</description>
                  <value>0</value>
                </enumeratedValue>
                <enumeratedValue>
                  <name>GPIOA_0</name>
                  <description>GPIO A, PIN 0</description>
                  <value>1</value>
                </enumeratedValue>
                <enumeratedValue>
                  <name>GPIOA_1</name>
                  <description>GPIO A, PIN 1</description>
                  <value>2</value>
                </enumeratedValue>
                <enumeratedValue>
                  <name>GPIOA_2</name>
                  <description>GPIO A, PIN 2</description>
                  <value>3</value>
                </enumeratedValue>
                <enumeratedValue>
                  <name>GPIOA_3</name>
                  <description>GPIO A, PIN 3</description>
                  <value>4</value>
                </enumeratedValue>
                <enumeratedValue>
                  <name>GPIOA_4</name>
                  <description>GPIO A, PIN 4</description>
                  <value>5</value>
                </enumeratedValue>
                <enumeratedValue>
                  <name>GPIOA_5</name>
                  <description>GPIO A, PIN 5</description>
                  <value>6</value>
                </enumeratedValue>
                <enumeratedValue>
                  <name>GPIOA_6</name>
                  <description>GPIO A, PIN 6</description>
                  <value>7</value>
                </enumeratedValue>
                <enumeratedValue>
                  <name>GPIOA_7</name>
                  <description>GPIO A, PIN 7</description>
                  <value>8</value>
                </enumeratedValue>
                <enumeratedValue>
                  <name>GPIOB_0</name>
                  <description>GPIO B, PIN 0</description>
                  <value>9</value>
                </enumeratedValue>
                <enumeratedValue>
                  <name>GPIOB_1</name>
                  <description>GPIO B, PIN 1</description>
                  <value>10</value>
                </enumeratedValue>
                <enumeratedValue>
                  <name>GPIOB_2</name>
                  <description>GPIO B, PIN 2</description>
                  <value>11</value>
                </enumeratedValue>
                <enumeratedValue>
                  <name>GPIOB_3</name>
                  <description>GPIO B, PIN 3</description>
                  <value>12</value>
                </enumeratedValue>
                <enumeratedValue>
                  <name>GPIOC_0</name>
                  <description>GPIO C, PIN 0</description>
                  <value>13</value>
                </enumeratedValue>
                <enumeratedValue>
                  <name>GPIOC_5</name>
                  <description>GPIO C, PIN 1</description>
                  <value>14</value>
                </enumeratedValue>
                <enumeratedValue>
                  <name>GPIOC_6</name>
                  <description>GPIO C, PIN 2</description>
                  <value>15</value>
                </enumeratedValue>
              </enumeratedValues>
            </field>

            <!-- CAPEDGE: Capture Edge -->
            <field>
              <name>CAPEDGE</name>
              <description>Capture Edge, select which Edge should result in a counter increment or decrement</description>
              <bitRange>[17:16]</bitRange>
              <access>read-write</access>
              <enumeratedValues>
                <enumeratedValue>
                  <name>RISING</name>
                  <description>Only rising edges result in a counter increment or decrement</description>
                  <value>0</value>
                </enumeratedValue>
                <enumeratedValue>
                  <name>FALLING</name>
                  <description>Only falling edges  result in a counter increment or decrement</description>
                  <value>1</value>
                </enumeratedValue>
                <enumeratedValue>
                  <name>BOTH</name>
                  <description>Rising and falling edges result in a counter increment or decrement</description>
                  <value>2</value>
                </enumeratedValue>
              </enumeratedValues>
            </field>

            <!-- TRGEXT: Triggers an other Peripheral -->
            <field>
              <name>TRGEXT</name>
              <description>Triggers an other Peripheral</description>
              <bitRange>[21:20]</bitRange>
              <access>read-write</access>
              <enumeratedValues>
                <enumeratedValue>
                  <name>NONE</name>
                  <description>No Trigger is emitted</description>
                  <value>0</value>
                </enumeratedValue>
                <enumeratedValue>
                  <name>DMA1</name>
                  <description>DMA Controller 1 is triggered, dependant on MODE</description>
                  <value>1</value>
                </enumeratedValue>
                <enumeratedValue>
                  <name>DMA2</name>
                  <description>DMA Controller 2 is triggered, dependant on MODE</description>
                  <value>2</value>
                </enumeratedValue>
                <enumeratedValue>
                  <name>UART</name>
                  <description>UART is triggered, dependant on MODE</description>
                  <value>3</value>
                </enumeratedValue>
              </enumeratedValues>
            </field>

            <!-- Reload: Selects Reload Register n -->
            <field>
              <name>RELOAD</name>
              <description>Select RELOAD Register n to reload Timer on condition</description>
              <bitRange>[25:24]</bitRange>
              <access>read-write</access>
              <enumeratedValues>
                <enumeratedValue>
                  <name>RELOAD0</name>
                  <description>Selects Reload Register number 0</description>
                  <value>0</value>
                </enumeratedValue>
                <enumeratedValue>
                  <name>RELOAD1</name>
                  <description>Selects Reload Register number 1</description>
                  <value>1</value>
                </enumeratedValue>
                <enumeratedValue>
                  <name>RELOAD2</name>
                  <description>Selects Reload Register number 2</description>
                  <value>2</value>
                </enumeratedValue>
                <enumeratedValue>
                  <name>RELOAD3</name>
                  <description>Selects Reload Register number 3</description>
                  <value>3</value>
                </enumeratedValue>
              </enumeratedValues>
            </field>

            <!-- IDR: Inc or dec Reload Register Selection -->
            <field>
              <name>IDR</name>
              <description>Selects, if Reload Register number is incremented, decremented or not modified</description>
              <bitRange>[27:26]</bitRange>
              <access>read-write</access>
              <enumeratedValues>
                <enumeratedValue>
                  <name>KEEP</name>
                  <description>Reload Register number does not change automatically</description>
                  <value>0</value>
                </enumeratedValue>
                <enumeratedValue>
                  <name>INCREMENT</name>
                  <description>Reload Register number is incremented on each match</description>
                  <value>1</value>
                </enumeratedValue>
                <enumeratedValue>
                  <name>DECREMENT</name>
                  <description>Reload Register number is decremented on each match</description>
                  <value>2</value>
                </enumeratedValue>
              </enumeratedValues>
            </field>

            <!-- START: Starts / Stops the Timer/Counter -->
            <field>
              <name>S</name>
              <description>Starts and Stops the Timer / Counter</description>
              <bitRange>[31:31]</bitRange>
              <access>read-write</access>
              <enumeratedValues>
                <enumeratedValue>
                  <name>STOP</name>
                  <description>Timer / Counter is stopped</description>
                  <value>0</value>
                </enumeratedValue>
                <enumeratedValue>
                  <name>START</name>
                  <description>Timer / Counter is started</description>
                  <value>1</value>
                </enumeratedValue>
              </enumeratedValues>
            </field>
          </fields>
        </register>

        <!-- SR: Status Register -->
        <register>
          <name>SR</name>
          <description>Status Register</description>
          <addressOffset>0x04</addressOffset>
          <size>16</size>
          <access>read-write</access>
          <resetValue>0x00000000</resetValue>
          <resetMask>0xD701</resetMask>

          <fields>
            <!-- RUN: Shows if Timer is running -->
            <field>
              <name>RUN</name>
              <description>Shows if Timer is running or not</description>
              <bitRange>[0:0]</bitRange>
              <access>read-only</access>
              <enumeratedValues>
                <enumeratedValue>
                  <name>Stopped</name>
                  <description>Timer is not running</description>
                  <value>0</value>
                </enumeratedValue>
                <enumeratedValue>
                  <name>Running</name>
                  <description>Timer is running</description>
                  <value>1</value>
                </enumeratedValue>
              </enumeratedValues>
            </field>

            <!-- MATCH: Shows if a Match was hit -->
            <field>
              <name>MATCH</name>
              <description>Shows if the MATCH was hit</description>
              <bitRange>[8:8]</bitRange>
              <access>read-write</access>
              <enumeratedValues>
                <enumeratedValue>
                  <name>No_Match</name>
                  <description>The MATCH condition was not hit</description>
                  <value>0</value>
                </enumeratedValue>
                <enumeratedValue>
                  <name>Match_Hit</name>
                  <description>The MATCH condition was hit</description>
                  <value>1</value>
                </enumeratedValue>
              </enumeratedValues>
            </field>

            <!-- UN: Shows if an underflow occured -->
            <field>
              <name>UN</name>
              <description>Shows if an underflow occured. This flag is sticky</description>
              <bitRange>[9:9]</bitRange>
              <access>read-write</access>
              <enumeratedValues>
                <enumeratedValue>
                  <name>No_Underflow</name>
                  <description>No underflow occured since last clear</description>
                  <value>0</value>
                </enumeratedValue>
                <enumeratedValue>
                  <name>Underflow</name>
                  <description>A minimum of one underflow occured since last clear</description>
                  <value>1</value>
                </enumeratedValue>
              </enumeratedValues>
            </field>

            <!-- OV: Shows if an overflow occured -->
            <field>
              <name>OV</name>
              <description>Shows if an overflow occured. This flag is sticky</description>
              <bitRange>[10:10]</bitRange>
              <access>read-write</access>
              <enumeratedValues>
                <enumeratedValue>
                  <name>No_Overflow</name>
                  <description>No overflow occured since last clear</description>
                  <value>0</value>
                </enumeratedValue>
                <enumeratedValue>
                  <name>Overflow_occured</name>
                  <description>A minimum of one overflow occured since last clear</description>
                  <value>1</value>
                </enumeratedValue>
              </enumeratedValues>
            </field>

            <!-- RST: Shows if Timer is in RESET state -->
            <field>
              <name>RST</name>
              <description>Shows if Timer is in RESET state</description>
              <bitRange>[12:12]</bitRange>
              <access>read-only</access>
              <enumeratedValues>
                <enumeratedValue>
                  <name>Ready</name>
                  <description>Timer is not in RESET state and can operate</description>
                  <value>0</value>
                </enumeratedValue>
                <enumeratedValue>
                  <name>In_Reset</name>
                  <description>Timer is in RESET state and can not operate</description>
                  <value>1</value>
                </enumeratedValue>
              </enumeratedValues>
            </field>

            <!-- RELOAD: Shows the currently active Reload Register -->
            <field>
              <name>RELOAD</name>
              <description>Shows the currently active RELOAD Register</description>
              <bitRange>[15:14]</bitRange>
              <access>read-only</access>
              <enumeratedValues>
                <enumeratedValue>
                  <name>RELOAD0</name>
                  <description>Reload Register number 0 is active</description>
                  <value>0</value>
                </enumeratedValue>
                <enumeratedValue>
                  <name>RELOAD1</name>
                  <description>Reload Register number 1 is active</description>
                  <value>1</value>
                </enumeratedValue>
                <enumeratedValue>
                  <name>RELOAD2</name>
                  <description>Reload Register number 2 is active</description>
                  <value>2</value>
                </enumeratedValue>
                <enumeratedValue>
                  <name>RELOAD3</name>
                  <description>Reload Register number 3 is active</description>
                  <value>3</value>
                </enumeratedValue>
              </enumeratedValues>
            </field>
          </fields>
        </register>

        <!-- INT: Interrupt Register -->
        <register>
          <name>INT</name>
          <description>Interrupt Register</description>
          <addressOffset>0x10</addressOffset>
          <size>16</size>
          <access>read-write</access>
          <resetValue>0x00000000</resetValue>
          <resetMask>0x0771</resetMask>

          <fields>
            <!-- EN: Interrupt Enable -->
            <field>
              <name>EN</name>
              <description>Interrupt Enable</description>
              <bitRange>[0:0]</bitRange>
              <access>read-write</access>
              <enumeratedValues>
                <enumeratedValue>
                  <name>Disabled</name>
                  <description>Timer does not generate Interrupts</description>
                  <value>0</value>
                </enumeratedValue>
                <enumeratedValue>
                  <name>Enable</name>
                  <description>Timer triggers the TIMERn Interrupt</description>
                  <value>1</value>
                </enumeratedValue>
              </enumeratedValues>
            </field>

            <!-- MODE: Interrupt Mode -->
            <field>
              <name>MODE</name>
              <description>Interrupt Mode, selects on which condition the Timer should generate an Interrupt</description>
              <bitRange>[6:4]</bitRange>
              <access>read-write</access>
              <enumeratedValues>
                <enumeratedValue>
                  <name>Match</name>
                  <description>Timer generates an Interrupt when the MATCH condition is hit</description>
                  <value>0</value>
                </enumeratedValue>
                <enumeratedValue>
                  <name>Underflow</name>
                  <description>Timer generates an Interrupt when it underflows</description>
                  <value>1</value>
                </enumeratedValue>
                <enumeratedValue>
                  <name>Overflow</name>
                  <description>Timer generates an Interrupt when it overflows</description>
                  <value>2</value>
                </enumeratedValue>
              </enumeratedValues>
            </field>
          </fields>
        </register>

        <!-- COUNT: Counter Register -->
        <register>
          <name>COUNT</name>
          <description>The Counter Register reflects the actual Value of the Timer/Counter</description>
          <addressOffset>0x20</addressOffset>
          <size>32</size>
          <access>read-write</access>
          <resetValue>0x00000000</resetValue>
          <resetMask>0xFFFFFFFF</resetMask>
        </register>

        <!-- MATCH: Match Register -->
        <register>
          <name>MATCH</name>
          <description>The Match Register stores the compare Value for the MATCH condition</description>
          <addressOffset>0x24</addressOffset>
          <size>32</size>
          <access>read-write</access>
          <resetValue>0x00000000</resetValue>
          <resetMask>0xFFFFFFFF</resetMask>
        </register>
        
        <!-- PRESCALE: Prescale Read Register -->
        <register>
          <name>PRESCALE_RD</name>
          <description>The Prescale Register stores the Value for the prescaler. The cont event gets divided by this value</description>
          <addressOffset>0x28</addressOffset>
          <size>32</size>
          <access>read-only</access>
          <resetValue>0x00000000</resetValue>
          <resetMask>0xFFFFFFFF</resetMask>
        </register>
        
        <!-- PRESCALE: Prescale Write Register -->
        <register>
          <name>PRESCALE_WR</name>
          <description>The Prescale Register stores the Value for the prescaler. The cont event gets divided by this value</description>
          <addressOffset>0x28</addressOffset>
          <size>32</size>
          <access>write-only</access>
          <resetValue>0x00000000</resetValue>
          <resetMask>0xFFFFFFFF</resetMask>
        </register>


        <!-- RELOAD: Array of Reload Register with 4 elements-->
        <register>
          <dim>4</dim>
          <dimIncrement>4</dimIncrement>
          <dimIndex>0,1,2,3</dimIndex>
          <name>RELOAD[%s]</name>
          <description>The Reload Register stores the Value the COUNT Register gets reloaded on a when a condition was met.</description>
          <addressOffset>0x50</addressOffset>
          <size>32</size>
          <access>read-write</access>
          <resetValue>0x00000000</resetValue>
          <resetMask>0xFFFFFFFF</resetMask>
        </register>
      </registers>
    </peripheral>

    <!-- Timer 1 -->
    <peripheral derivedFrom=""TIMER0"">
      <name>TIMER1</name>
      <baseAddress>0x40010100</baseAddress>
      <interrupt>
        <name>TIMER1</name>
        <value>4</value>
      </interrupt>
    </peripheral>

    <!-- Timer 2 -->
    <peripheral derivedFrom=""TIMER0"">
      <name>TIMER2</name>
      <baseAddress>0x40010200</baseAddress>
      <interrupt>
        <name>TIMER2</name>
        <value>6</value>
      </interrupt>
    </peripheral>
  </peripherals>
</device>
"%string.
Example bad_svd_test : parse Debug 0 read_text arm_sample_faulty = Err (EUnknownMwv "oneToFail").
Proof. vm_compute. reflexivity. Qed.
