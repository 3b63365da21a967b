-Q theories Verif
theories/Base/Draws.v
theories/Base/Words.v
theories/Base/ListX.v
theories/Base/Mem.v
theories/Filter/MurmurModel.v
theories/Filter/BloomModel.v
theories/Filter/BloomSpec.v
theories/Filter/BloomProofs.v
theories/Filter/BloomProps.v
theories/Utility/BitOpModel.v
theories/Utility/BitOpProofs.v
theories/Utility/BitOpProps.v
theories/Filter/CuckooModel.v
theories/Filter/CuckooSpec.v
theories/Filter/CuckooProofs.v
theories/Filter/CuckooProps.v
theories/Crypto/BlockModel.v
theories/Crypto/BlockProofs.v
theories/Crypto/BlockProps.v
theories/Crypto/AESModel.v
theories/Crypto/AESSpec.v
theories/Crypto/AESProofs.v
theories/Crypto/AESKeyProofs.v
theories/Crypto/PRGModel.v
theories/Crypto/PRGProofs.v
theories/Crypto/AESProps.v
theories/Utility/SerialModel.v
theories/Utility/SerialSpec.v
theories/Utility/SerialProofs.v
theories/Utility/SerialProps.v
theories/Param/ParamModel.v
theories/Param/ParamSpec.v
theories/Param/ParamProofs.v
theories/Param/ParamProps.v
theories/Crypto/BigIntModel.v
theories/Crypto/BigIntSpec.v
theories/Crypto/BigIntProofs.v
theories/Crypto/BigIntProps.v
theories/Group/ECModel.v
theories/Group/ECProofs.v
theories/Group/StringHashModel.v
theories/Group/StringHashProps.v
theories/Group/ZqGroup.v
theories/PKE/DlogModel.v
theories/PKE/DlogSpec.v
theories/PKE/DlogProofs.v
theories/PKE/DlogProps.v
theories/PKE/ElGamalModel.v
theories/PKE/ElGamalProofs.v
theories/PKE/ElGamalProps.v
theories/Utility/Murmur2Model.v
theories/Utility/Murmur2Proofs.v
theories/PKE/KeyProps.v
theories/PKE/CTFileModel.v
theories/PKE/CTFileProps.v
theories/PKE/TableNameModel.v
theories/PKE/TableNameProofs.v
theories/PKE/TableNameProps.v
theories/Sigma/SigmaModel.v
theories/Sigma/SigmaSpec.v
theories/Sigma/SigmaProofs.v
theories/Sigma/SigmaProps.v
theories/Ring/RingModel.v
theories/Ring/RingSpec.v
theories/Ring/RingProofs.v
theories/Ring/RingProps.v
theories/Ring/RingExtractSpec.v
theories/Ring/RingExtractProps.v
theories/Ring/AnonSpec.v
theories/Ring/AnonProps.v
theories/Bullet/IPModel.v
theories/Bullet/BPModel.v
theories/Bullet/BPSpec.v
theories/Bullet/IPProofs.v
theories/Bullet/LagSpec.v
theories/Bullet/LagProofs.v
theories/Bullet/BPProofs.v
theories/Bullet/BPProps.v
theories/Bullet/HidingSpec.v
theories/Bullet/HidingProps.v
theories/Bullet/ExtractSpec.v
theories/Bullet/ExtractProofs.v
theories/Bullet/BPExtractSpec.v
theories/Bullet/BPExtractProofs.v
theories/Bullet/ExtractProps.v
theories/Bullet/GadgetSoundSpec.v
theories/Bullet/GadgetSoundProps.v
theories/Bullet/GadgetModel.v
theories/Bullet/GadgetProps.v
theories/ADCP/ADCPModel.v
theories/ADCP/ADCPSpec.v
theories/ADCP/ADCPProofs.v
theories/ADCP/ADCPProps.v
theories/ADCP/ADCPManyProps.v
theories/ADCP/ADCPGateSpec.v
theories/ADCP/ADCPGateProps.v
theories/ADCP/ADCPSoundSpec.v
theories/ADCP/ADCPSoundProps.v
theories/ADCP/ADCPSoundRun.v
theories/ADCP/ADCPSoundRunN.v
theories/ADCP/ADCPLimitProps.v
theories/ADCP/ADCPSaveProps.v
theories/ADCP/ADCPFileModel.v
theories/ADCP/ADCPFileProps.v
theories/ADCP/DiskModel.v
theories/ADCP/DiskProofs.v
theories/ADCP/DiskProps.v
theories/ADCP/RecordProps.v
theories/ADCP/DiskManyProps.v
theories/Crypto/HexModel.v
theories/Group/RandomModel.v
theories/Group/RandomProps.v
theories/ADCP/HexProps.v
theories/Net/ChannelModel.v
theories/Net/ChannelSpec.v
theories/Net/ChannelProofs.v
theories/Net/ChannelProps.v
theories/Net/PartyModel.v
theories/Net/PartyProofs.v
theories/Net/CrashModel.v
theories/Net/CrashProps.v
theories/OT/OTModel.v
theories/OT/OTSpec.v
theories/OT/OTProofs.v
theories/OT/OTRun.v
theories/OT/OTProps.v
theories/MPC/HashModel.v
theories/MPC/HashProps.v
theories/MPC/DDHModel.v
theories/MPC/DDHProofs.v
theories/MPC/DDHProps.v
theories/OT/PrivacySpec.v
theories/OT/PrivacyProps.v
theories/MPC/CwModel.v
theories/MPC/CwSpec.v
theories/MPC/CwProofs.v
theories/MPC/CwProps.v
theories/MPC/CrashPSIProps.v
theories/MPC/PSOModel.v
theories/MPC/PSOSpec.v
theories/MPC/PSOProofs.v
theories/MPC/PSOProps.v
theories/MPC/SumPrivacyProps.v
theories/OKVS/DivModel.v
theories/OKVS/DivProofs.v
theories/OKVS/DivProps.v
theories/OKVS/GFModel.v
theories/OKVS/GFSpec.v
theories/OKVS/GFProofs.v
theories/OKVS/GFInverse.v
theories/OKVS/GFProps.v
theories/OKVS/MatModel.v
theories/OKVS/MatSpec.v
theories/OKVS/MatProofs.v
theories/OKVS/MatProps.v
theories/VOLE/BVModel.v
theories/VOLE/BVProofs.v
theories/VOLE/BVProps.v
theories/VOLE/CodeModel.v
theories/VOLE/CodeProofs.v
theories/VOLE/CodeProps.v
theories/VOLE/GGMModel.v
theories/VOLE/GGMSpec.v
theories/VOLE/GGMProofs.v
theories/VOLE/GGMProps.v
theories/VOLE/VOLEModel.v
theories/VOLE/VOLESpec.v
theories/VOLE/VOLEProofs.v
theories/VOLE/VOLEProps.v
theories/OKVS/SparseModel.v
theories/OKVS/SparseSpec.v
theories/OKVS/SparseProofs.v
theories/OKVS/SparseProps.v
theories/OKVS/PaxosModel.v
theories/OKVS/PaxosSpec.v
theories/OKVS/PaxosLists.v
theories/OKVS/PaxosSet.v
theories/OKVS/PaxosTri.v
theories/OKVS/PaxosSum.v
theories/OKVS/PaxosFC.v
theories/OKVS/PaxosBack.v
theories/OKVS/PaxosSolve.v
theories/OKVS/PaxosEncode.v
theories/OKVS/PaxosProps.v
theories/OKVS/FileModel.v
theories/OKVS/FileProofs.v
theories/OKVS/FileProps.v
theories/OKVS/BaxosModel.v
theories/OKVS/BaxosSpec.v
theories/OKVS/BaxosLists.v
theories/OKVS/BaxosSort.v
theories/OKVS/BaxosBins.v
theories/OKVS/BaxosSolve.v
theories/OKVS/BaxosDecode.v
theories/OKVS/BaxosProps.v
theories/OKVS/PaxosZero.v
theories/MPC/VOPRFModel.v
theories/MPC/VOPRFSpec.v
theories/MPC/VOPRFProofs.v
theories/MPC/VOPRFProps.v
theories/MPC/PrivateIDProps.v
theories/MPC/OOPRFModel.v
theories/MPC/OOPRFSpec.v
theories/MPC/OOPRFProofs.v
theories/MPC/OOPRFRun.v
theories/MPC/OOPRFProps.v
theories/OKVS/PaxosClosed.v
theories/MPC/RRModel.v
theories/MPC/RRSpec.v
theories/MPC/RRProofs.v
theories/MPC/RRProps.v
theories/MPC/ShuffleModel.v
theories/MPC/ShuffleProofs.v
theories/MPC/ShuffleProps.v
theories/MPC/PointSetModel.v
theories/MPC/PointSetProps.v
theories/Par/ParModel.v
theories/Par/ParProps.v
theories/Par/ParCryptoProps.v
