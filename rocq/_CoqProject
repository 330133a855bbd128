-Q theories Verif
theories/AeadCcmProofs.v
theories/AeadChaProofs.v
theories/AeadEaxProofs.v
theories/AeadGcmProofs.v
theories/AeadModel.v
theories/AeadProofs.v
theories/AeadProperties.v
theories/AeadRunProofs.v
theories/AeadSpec.v
theories/AesKeyProofs.v
theories/AesModel.v
theories/AesProofs.v
theories/AesProperties.v
theories/AesRunProofs.v
theories/AesSpec.v
theories/AesTopProofs.v
theories/AlgebraModProofs.v
theories/AlgebraModel.v
theories/AlgebraProofs.v
theories/AlgebraProperties.v
theories/AlgebraSpec.v
theories/AsnKeyProofs.v
theories/AsnModel.v
theories/AsnProofs.v
theories/AsnProperties.v
theories/AsnSpec.v
theories/Base.v
theories/BitioModel.v
theories/BitioProofs.v
theories/BitioSpec.v
theories/BitioStream.v
theories/Blocks.v
theories/ChannelModel.v
theories/ChannelProofs.v
theories/ChannelProperties.v
theories/ChannelSpec.v
theories/ChecksumModel.v
theories/ChecksumProofs.v
theories/ChecksumProperties.v
theories/ChecksumSpec.v
theories/CipherBteaProofs.v
theories/CipherModel.v
theories/CipherProofs.v
theories/CipherProperties.v
theories/CipherSpec.v
theories/CipherTfProofs.v
theories/CodecModel.v
theories/CodecProofs.v
theories/CodecProperties.v
theories/CodecSpec.v
theories/DeflateBlock.v
theories/DeflateHeader.v
theories/DeflateMatch.v
theories/DeflateModel.v
theories/DeflateProofs.v
theories/DeflateProperties.v
theories/DeflateSpec.v
theories/DeflateTree.v
theories/DesBlockProofs.v
theories/DesModel.v
theories/DesProofs.v
theories/DesProperties.v
theories/DesRunProofs.v
theories/DesSpec.v
theories/Ec2nModel.v
theories/Ec2nProofs.v
theories/Ec2nProperties.v
theories/Ec2nSpec.v
theories/EcCodecModel.v
theories/EcCodecProofs.v
theories/EcCodecProperties.v
theories/EcCodecSpec.v
theories/EcModel.v
theories/EcProjModel.v
theories/EcProjProofs.v
theories/EcProjProperties.v
theories/EcProjSpec.v
theories/EcProofs.v
theories/EcProperties.v
theories/EcSpec.v
theories/EqFilterModel.v
theories/EqFilterProofs.v
theories/EqFilterProperties.v
theories/EqFilterSpec.v
theories/FilterModel.v
theories/FilterProofs.v
theories/FilterProperties.v
theories/FilterSpec.v
theories/Gf2Proofs.v
theories/Gf2Spec.v
theories/Gf2nCodecModel.v
theories/Gf2nCodecProofs.v
theories/Gf2nCodecProperties.v
theories/Gf2nGcdModel.v
theories/Gf2nGcdProofs.v
theories/Gf2nGcdProperties.v
theories/Gf2nGcdSpec.v
theories/Gf2nModel.v
theories/Gf2nProofs.v
theories/Gf2nProperties.v
theories/Gf2nSquareProofs.v
theories/Gf2ntModel.v
theories/Gf2ntProofs.v
theories/Gf2ntProperties.v
theories/Gf32FieldProofs.v
theories/Gf32InvProofs.v
theories/Gf32Model.v
theories/Gf32Proofs.v
theories/Gf32Properties.v
theories/HashModel.v
theories/HashProofs.v
theories/HashProperties.v
theories/HashSpec.v
theories/HuffmanCode.v
theories/HuffmanModel.v
theories/HuffmanProofs.v
theories/HuffmanProperties.v
theories/HuffmanSpec.v
theories/HuffmanTable.v
theories/IdaInfoProofs.v
theories/IdaModel.v
theories/IdaProofs.v
theories/IdaProperties.v
theories/IdaRawProofs.v
theories/IdaRecoverProofs.v
theories/IdaShareProofs.v
theories/IdaSinkProofs.v
theories/IdaSpec.v
theories/InflateBits.v
theories/InflateBody.v
theories/InflateHeader.v
theories/InflateModel.v
theories/InflateProofs.v
theories/InflateProperties.v
theories/InflateSpec.v
theories/InflateStream.v
theories/IntegerBitProofs.v
theories/IntegerCodecProofs.v
theories/IntegerDivProofs.v
theories/IntegerInvProofs.v
theories/IntegerModel.v
theories/IntegerProofs.v
theories/IntegerProperties.v
theories/IntegerSpec.v
theories/InterpGfProofs.v
theories/InterpModel.v
theories/InterpProofs.v
theories/InterpSpec.v
theories/KdfModel.v
theories/KdfProofs.v
theories/KdfProperties.v
theories/KdfSpec.v
theories/MacModel.v
theories/MacProofs.v
theories/MacProperties.v
theories/MacSpec.v
theories/Mem.v
theories/ModModel.v
theories/ModProofs.v
theories/ModSpec.v
theories/ModesModel.v
theories/ModesProofs.v
theories/ModesProperties.v
theories/ModesSpec.v
theories/NbModel.v
theories/NbProofs.v
theories/NbProperties.v
theories/NbRandomProofs.v
theories/NbRootProofs.v
theories/NbSpec.v
theories/NbTestProofs.v
theories/NumberTheory.v
theories/PkPadModel.v
theories/PkPadProofs.v
theories/PkPadProperties.v
theories/PkPadSpec.v
theories/PkTfProofs.v
theories/PolicyProofs.v
theories/Poly1305Model.v
theories/Poly1305Proofs.v
theories/Poly1305Properties.v
theories/Poly1305Spec.v
theories/Proth.v
theories/QueueModel.v
theories/QueueProofs.v
theories/QueueProperties.v
theories/QueueSpec.v
theories/Reciprocity.v
theories/RngModel.v
theories/RngProofs.v
theories/RngProperties.v
theories/RngSpec.v
theories/RsaModel.v
theories/RsaProofs.v
theories/RsaProperties.v
theories/RsaSpec.v
theories/SecBlockModel.v
theories/SecBlockProofs.v
theories/SecBlockProperties.v
theories/SecBlockSpec.v
theories/StreamProofs.v
theories/WindowModel.v
theories/WindowProofs.v
theories/WindowProperties.v
theories/WindowSpec.v
theories/WordsAlmostProofs.v
theories/WordsAsymProofs.v
theories/WordsDivProofs.v
theories/WordsInvProofs.v
theories/WordsLongDivProofs.v
theories/WordsModel.v
theories/WordsMulProofs.v
theories/WordsProofs.v
theories/WordsRecProofs.v
theories/WordsSpec.v
theories/WordsTopProofs.v
theories/WrapFormat.v
theories/WrapModel.v
theories/WrapProofs.v
theories/WrapProperties.v
theories/WrapSpec.v
